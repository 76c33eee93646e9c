(** Reproducible extraction and header fields. *)
From Coq Require Import Lia Permutation Sorted.
From Verif Require Import GoStr GoStrFacts GoMap GoMapFacts FileModel FileFacts FileSpec PoModel PoSpec PoCatalogFacts PoLoadFacts SortFacts
  XtModel XtSpec XtKeyFacts XtFacts XtMergeFacts XtRunFacts XtRepSpec.
Local Open Scope Z_scope.

(** ** Header fields *)
Ltac pick := first [reflexivity | left; pick | right; pick].
Lemma first_line_app k a v ls : cut (a ++ B ": " ++ v) = Some (a, v) -> trim_space a = a ->
  first_line k ((a ++ B ": " ++ v) :: ls) = if beq a k then Some (trim_space v) else first_line k ls.
Proof. intros C T. cbn [first_line]. rewrite C, T. reflexivity. Qed.
Theorem header_fields_iff now p hp k v : ~ In NL now -> one_line p ->
  (header_value (e_str (header_entry now p hp)) k = Some v <->
   In (k, v) (header_fields now p) \/ hp = true /\ (k, v) = plural_field).
Proof.
  intros Hn Hp. unfold header_value, header_entry, e_str.
  rewrite split_join.
  2:{ discriminate. }
  2:{ intros x Hx. unfold header_lines in Hx. rewrite !in_app_iff in Hx.
      assert (L : forall a b, ~ In NL a -> ~ In NL b -> ~ In NL (a ++ b)) by (intros a b Ha Hb I; apply in_app_or in I; tauto).
      assert (Hps : forall s, In s [p_input p; p_left p; p_right p; p_keyword p; p_function p; p_output p] -> ~ In NL s) by exact Hp.
      cbn [In] in Hps. destruct Hx as [Hx|[Hx|Hx]].
      - cbn [In] in Hx. repeat (destruct Hx as [<-|Hx]; [first [apply L; [cbn; intuition discriminate|assumption]|cbn; intuition discriminate]|]). destruct Hx.
      - destruct hp; [|destruct Hx]. destruct Hx as [<-|[]]. cbn; intuition discriminate.
      - cbn [In] in Hx. repeat (destruct Hx as [<-|Hx]; [first [apply L; [cbn; intuition discriminate|apply Hps; tauto]|intros []]|]). destruct Hx. }
  pose (pairs := [(B "Project-Id-Version", B "PACKAGE VERSION"); (B "Report-Msgid-Bugs-To", []); (B "POT-Creation-Date", now);
   (B "PO-Revision-Date", B "YEAR-MO-DA HO:MI+ZONE"); (B "Last-Translator", B "FULL NAME <EMAIL@ADDRESS>");
   (B "Language-Team", B "LANGUAGE <LL@li.org>"); (B "Language", []); (B "MIME-Version", B "1.0");
   (B "Content-Type", B "text/plain; charset=CHARSET"); (B "Content-Transfer-Encoding", B "8bit");
   (B "X-Created-By", B "xtemplate(https://github.com/youthlin/t/tree/main/cmd/xtemplate)")]
   ++ (if hp then [plural_field] else []) ++
   [(B "X-Xtemplate-Input", p_input p); (B "X-Xtemplate-Left", p_left p);
   (B "X-Xtemplate-Right", p_right p); (B "X-Xtemplate-Keywords", p_keyword p);
   (B "X-Xtemplate-Functions", p_function p); (B "X-Xtemplate-Output", p_output p)]).
  assert (G : forall ps, (forall a b, In (a, b) ps -> cut (a ++ B ": " ++ b) = Some (a, b) /\ trim_space a = a) -> NoDup (map fst ps) ->
    (first_line k (map (fun x => fst x ++ B ": " ++ snd x) ps ++ [[]]) = Some v <-> exists b, In (k, b) ps /\ v = trim_space b)).
  { clear. induction ps as [|[a b] ps IH]; intros H N.
    - cbn. split; [discriminate|]. intros (b & [] & _).
    - cbn [map fst snd app]. destruct (H a b (or_introl eq_refl)) as [C T]. rewrite first_line_app by assumption.
      cbn [map fst] in N. inversion N as [|x l Nx N']; subst.
      destruct (beq_spec a k) as [<-|Ne].
      + split; [intros E; exists b; split; [left; reflexivity|congruence]|].
        intros (b' & [E|I] & ->); [congruence|]. exfalso. apply Nx. apply in_map_iff. exists (a, b'). auto.
      + rewrite IH; [|intros; apply H; right; assumption|exact N'].
        split; intros (b' & I & E); exists b'; (split; [|exact E]); [right; exact I|]. destruct I as [I|I]; [congruence|exact I]. }
  assert (El : header_lines now p hp = map (fun x => fst x ++ B ": " ++ snd x) pairs ++ [[]]).
  { unfold header_lines, pairs. destruct hp; reflexivity. }
  rewrite El, G; clear G El.
  - assert (Q : forall b, trim_space b = trim_space b) by reflexivity.
    unfold pairs. setoid_rewrite in_app_iff. setoid_rewrite in_app_iff. unfold header_fields. cbn [In]. unfold plural_field. split.
    + intros (b & I & ->). destruct I as [I|[I|I]].
      * left. repeat (destruct I as [I|I]; [apply pair_equal_spec in I as [<- <-]; pick|]). destruct I.
      * destruct hp; [|destruct I]. destruct I as [I|[]]. apply pair_equal_spec in I as [<- <-]. right. split; reflexivity.
      * left. repeat (destruct I as [I|I]; [apply pair_equal_spec in I as [<- <-]; pick|]). destruct I.
    + intros [I|[-> I]].
      * repeat (destruct I as [I|I]; [apply pair_equal_spec in I as [<- <-]; eexists; (split; [pick|reflexivity])|]). destruct I.
      * apply pair_equal_spec in I as [-> ->]. eexists. split; [right; left; left; reflexivity|reflexivity].
  - intros a b I. unfold pairs in I. rewrite !in_app_iff in I. destruct I as [I|[I|I]].
    + cbn [In] in I. repeat (destruct I as [I|I]; [apply pair_equal_spec in I as [<- <-]; split; reflexivity|]). destruct I.
    + destruct hp; [|destruct I]. destruct I as [I|[]]. apply pair_equal_spec in I as [<- <-]. split; reflexivity.
    + cbn [In] in I. repeat (destruct I as [I|I]; [apply pair_equal_spec in I as [<- <-]; split; reflexivity|]). destruct I.
  - unfold pairs. destruct hp; cbn [app map fst plural_field]; repeat (constructor; [cbn [In]; intuition discriminate|]); constructor.
Qed.
