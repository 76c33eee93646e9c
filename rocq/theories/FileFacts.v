From Verif Require Import GoStr GoStrFacts GoMap GoMapFacts GoRegex PluralModel PluralSpec PluralEvalFacts FileModel FileSpec FormsFacts.
From Coq Require Import Lia ZifyBool ZifyNat ZifyN.
Local Open Scope Z_scope.

(** ** Message names *)
Lemma app_sep (x : ascii) (a b a' b' : bytes) : ~ In x a -> ~ In x a' -> a ++ x :: b = a' ++ x :: b' -> a = a' /\ b = b'.
Proof.
  revert a'. induction a as [|y a IH]; intros [|z a'] H H' E; cbn in E.
  - injection E as ->. auto.
  - injection E as -> _. exfalso. apply H'. left. reflexivity.
  - injection E as -> _. exfalso. apply H. left. reflexivity.
  - injection E as -> E. destruct (IH a') as [-> ->]; auto; intros I; [apply H|apply H']; right; exact I.
Qed.
Lemma key_inj c i c' i' : ~ In EOT c -> (~ In EOT i \/ ~ In EOT c') -> key c i = key c' i' -> c = c' /\ i = i'.
Proof.
  unfold key. intros Hc [Hi|Hc'] E; [|apply (app_sep EOT); assumption].
  apply (app_sep EOT); try assumption. intros I. apply in_split in I as (x & y & ->).
  rewrite <- app_assoc in E. cbn in E.
  (* the first separator ends c, so i has the second *)
  assert (G : forall c x, ~ In EOT c -> c ++ EOT :: i = x ++ EOT :: y ++ EOT :: i' -> In EOT i); [|apply Hi, (G c x Hc E)].
  clear. induction c as [|a c IH]; intros [|b x] Hc E; cbn in E.
  - injection E as ->. apply in_or_app. right. left. reflexivity.
  - injection E as _ ->. apply in_or_app. right. right. apply in_or_app. right. left. reflexivity.
  - injection E as -> _. exfalso. apply Hc. left. reflexivity.
  - injection E as -> E. apply (IH x); [intros I; apply Hc; right; exact I|exact E].
Qed.
Lemma key_collision : exists c i c' i', (c, i) <> (c', i') /\ key c i = key c' i'.
Proof. exists (B "a"), (B "b" ++ EOT :: B "c"), (B "a" ++ EOT :: B "b"), (B "c"). split; [discriminate|reflexivity]. Qed.

(** ** Lookups do not touch the entries *)
Lemma init_header_entries f : f_entries (init_header f) = f_entries f.
Proof. unfold init_header. destruct (f_headers f); reflexivity. Qed.
Lemma init_plural_entries f : f_entries (init_plural f) = f_entries f.
Proof. unfold init_plural. destruct (f_plural f); [reflexivity|]. cbn. apply init_header_entries. Qed.
Lemma get_header_entries k f : f_entries (snd (get_header k f)) = f_entries f.
Proof. cbn. apply init_header_entries. Qed.
Lemma lang_file f : snd (lang f) = init_header f.
Proof. reflexivity. Qed.
Lemma add_entry_entries f e : f_entries (add_entry f e) = mput (e_key e) e (f_entries f).
Proof.
  unfold add_entry. destruct (is_header e); [|reflexivity]. rewrite init_plural_entries, init_header_entries. reflexivity.
Qed.
Section Hist.
Context {A : Type}.
Variable fmt : bytes -> list A -> bytes.
Implicit Types (os : list (fop A)).
Notation run := (run fmt). Notation step := (step fmt).

Lemma xn_file f c i i2 n args : snd (f_xn64 fmt f c i i2 n args) = f \/ snd (f_xn64 fmt f c i i2 n args) = init_plural f.
Proof.
  unfold f_xn64. destruct (mget _ _) as [e|]; [|auto]. destruct (_ && _); [auto|]. right.
  destruct (f_plural (init_plural f)) as [p|]; [|reflexivity].
  destruct (_ <=? _); [reflexivity|]. destruct (_ || _); [reflexivity|].
  destruct (nth_error _ _) as [s|]; [|reflexivity]. destruct (is_empty s); reflexivity.
Qed.
Lemma step_entries f o : f_entries (step f o) = match o with OAdd e => mput (e_key e) e (f_entries f) | _ => f_entries f end.
Proof.
  destruct o; cbn [FileSpec.step].
  - apply add_entry_entries.
  - apply get_header_entries.
  - rewrite lang_file. apply init_header_entries.
  - reflexivity.
  - destruct (xn_file f c i i2 n args) as [-> | ->]; [reflexivity|apply init_plural_entries].
Qed.
Lemma run_snoc os o : run (os ++ [o]) = step (run os) o.
Proof. unfold FileSpec.run. rewrite fold_left_app. reflexivity. Qed.
Lemma run_nodup os : NoDup (keys (f_entries (run os))).
Proof.
  induction os as [|o os IH] using rev_ind; [constructor|].
  rewrite run_snoc, step_entries. destruct o; try exact IH. apply nodup_put, IH.
Qed.

(** ** The last definition *)
Lemma defines_fun c i (o : fop A) e e' : defines c i o e -> defines c i o e' -> e = e'.
Proof. intros (-> & _) ([= ->] & _). reflexivity. Qed.
Lemma no_def_nil c i : no_def (@nil (fop A)) c i.
Proof. intros o e []. Qed.
Lemma last_def_snoc os o c i : (exists e, defines c i o e) -> forall e, last_def (os ++ [o]) c i e <-> defines c i o e.
Proof.
  intros [e0 D0] e. split.
  - intros (os1 & o1 & os2 & E & D & N).
    destruct os2 as [|x os2 _] using rev_ind.
    + apply app_inj_tail in E as [_ ->]. exact D.
    + change (os1 ++ o1 :: os2 ++ [x]) with (os1 ++ (o1 :: os2) ++ [x]) in E. rewrite app_assoc in E.
      apply app_inj_tail in E as [_ ->]. exfalso. apply (N x e0); [apply in_or_app; right; left; reflexivity|exact D0].
  - intros D. exists os, o, []. split; [reflexivity|]. split; [exact D|]. intros ? ? [].
Qed.
Lemma last_def_skip os o c i : (forall e, ~ defines c i o e) -> forall e, last_def (os ++ [o]) c i e <-> last_def os c i e.
Proof.
  intros N e. split.
  - intros (os1 & o1 & os2 & E & D & F).
    destruct os2 as [|x os2 _] using rev_ind.
    + apply app_inj_tail in E as [_ ->]. destruct (N e D).
    + change (os1 ++ o1 :: os2 ++ [x]) with (os1 ++ (o1 :: os2) ++ [x]) in E. rewrite app_assoc in E.
      apply app_inj_tail in E as [-> ->]. exists os1, o1, os2. split; [reflexivity|]. split; [exact D|].
      intros o' e' I. apply F, in_or_app. left. exact I.
  - intros (os1 & o1 & os2 & -> & D & F). exists os1, o1, (os2 ++ [o]). split; [rewrite <- app_assoc; reflexivity|].
    split; [exact D|]. intros o' e' I. apply in_app_or in I as [I|[<-|[]]]; [apply F, I|apply N].
Qed.
Lemma no_def_snoc os o c i : no_def (os ++ [o]) c i <-> no_def os c i /\ forall e, ~ defines c i o e.
Proof.
  unfold no_def. split.
  - intros H. split; intros; apply H, in_or_app; [left; assumption|right; left; reflexivity].
  - intros [H1 H2] o' e I. apply in_app_or in I as [I|[<-|[]]]; [apply H1, I|apply H2].
Qed.
Lemma defines_dec c i (o : fop A) : {e | defines c i o e} + {forall e, ~ defines c i o e}.
Proof.
  destruct o as [e|k| |c' i' args|c' i' i2 n args]; try (right; intros e' (E & _); discriminate).
  destruct (bytes_dec (joined (e_ctxt e) (e_id e)) (joined c i)) as [H|N]; [|right; intros e' ([= <-] & ?); contradiction].
  left. exists e. split; [reflexivity|exact H].
Qed.
Lemma last_or_none os c i : (exists e, last_def os c i e) \/ no_def os c i.
Proof.
  induction os as [|o os IH] using rev_ind; [right; apply no_def_nil|].
  destruct (defines_dec c i o) as [[e D]|N].
  - left. exists e. apply last_def_snoc; eauto.
  - destruct IH as [[e L]|F]; [left; exists e; apply last_def_skip; assumption|right; apply no_def_snoc; auto].
Qed.
Lemma last_def_fun os c i e e' : last_def os c i e -> last_def os c i e' -> e = e'.
Proof.
  revert e e'. induction os as [|o os IH] using rev_ind; intros e e' H H'.
  - destruct H as (os1 & o & os2 & E & _). destruct os1; discriminate.
  - destruct (defines_dec c i o) as [[e0 D]|N].
    + rewrite last_def_snoc in H, H' by eauto. exact (defines_fun _ _ _ _ _ H H').
    + rewrite last_def_skip in H, H' by exact N. apply IH; assumption.
Qed.
Lemma last_no os c i e : last_def os c i e -> no_def os c i -> False.
Proof.
  intros (os1 & o & os2 & -> & D & _) N. apply (N o e); [apply in_or_app; right; left; reflexivity|exact D].
Qed.
(** with names that the separator cannot confuse, the joined name is the name *)
Lemma defines_adds os c i o e : names_ok os c i -> In o os -> (defines c i o e <-> adds c i o e).
Proof.
  intros [Hc Hi] I. split.
  - intros (-> & J). symmetry in J. apply key_inj in J as [-> ->]; [repeat split|exact Hc|].
    destruct Hi as [Hi|Hi]; [left; exact Hi|right; apply Hi, I].
  - intros (-> & <- & <-). split; reflexivity.
Qed.
Lemma last_def_exact os c i e : names_ok os c i -> (last_def os c i e <-> last_exact os c i e).
Proof.
  intros Ok. split; intros (os1 & o & os2 & E & D & N); exists os1, o, os2; (split; [exact E|]);
  (assert (Io : In o os) by (rewrite E; apply in_or_app; right; left; reflexivity));
  (split; [apply (defines_adds os c i o e Ok Io), D|]); intros o' e' I D'; apply (N o' e' I);
  (assert (I' : In o' os) by (rewrite E; apply in_or_app; right; right; exact I));
  apply (defines_adds os c i o' e' Ok I'), D'.
Qed.
Lemma no_def_exact os c i : names_ok os c i -> (no_def os c i <-> no_exact os c i).
Proof. intros Ok. split; intros N o e I D; apply (N o e I), (defines_adds os c i o e Ok I), D. Qed.
(** only the empty context and id have the name of the header *)
Lemma joined_header c i : joined c i = joined [] [] -> c = [] /\ i = [].
Proof. unfold joined. destruct c as [|a [|b c]]; cbn; intros [= H]; subst; auto; try discriminate. Qed.
Lemma run_get os c i :
  (forall e, last_def os c i e -> mget (key c i) (f_entries (run os)) = Some e)
  /\ (no_def os c i -> mget (key c i) (f_entries (run os)) = None).
Proof.
  induction os as [|o os IH] using rev_ind.
  - split; [intros e (os1 & o & os2 & E & _); destruct os1; discriminate|reflexivity].
  - destruct IH as [IH1 IH2]. rewrite run_snoc, step_entries.
    destruct (defines_dec c i o) as [[e0 D]|N].
    + split.
      * intros e H. apply last_def_snoc in H; [|eauto]. destruct H as (-> & H).
        change (e_key e) with (joined (e_ctxt e) (e_id e)). rewrite H. apply mget_put_same.
      * intros H. apply no_def_snoc in H as [_ H]. destruct (H _ D).
    + assert (E : mget (key c i) (match o with OAdd e => mput (e_key e) e (f_entries (run os)) | _ => f_entries (run os) end)
                  = mget (key c i) (f_entries (run os))).
      { destruct o as [e'| | | |]; try reflexivity. apply mget_put_other. intros K.
        apply (N e'). split; [reflexivity|]. symmetry. exact K. }
      rewrite E. split.
      * intros e H. apply IH1. rewrite last_def_skip in H by exact N. exact H.
      * intros H. apply no_def_snoc in H as [H _]. apply IH2, H.
Qed.
Lemma run_get_cases os c i :
  (exists e, last_def os c i e /\ mget (key c i) (f_entries (run os)) = Some e)
  \/ (no_def os c i /\ mget (key c i) (f_entries (run os)) = None).
Proof.
  destruct (run_get os c i) as [H1 H2].
  destruct (last_or_none os c i) as [[e L]|N]; [left; eauto|right; auto].
Qed.

(** ** X *)
Lemma x_found os c i args e : last_def os c i e -> e_str e <> [] -> f_x fmt (run os) c i args = fmt (e_str e) args.
Proof.
  intros L N. unfold f_x. rewrite (proj1 (run_get os c i) e L). destruct (e_str e); [congruence|reflexivity].
Qed.
Lemma x_missing os c i args : (forall e, last_def os c i e -> e_str e = []) -> f_x fmt (run os) c i args = fmt i args.
Proof.
  intros H. unfold f_x. destruct (run_get_cases os c i) as [(e & L & ->)|[_ ->]]; [|reflexivity].
  rewrite (H e L). reflexivity.
Qed.

(** ** Headers *)
(** the text of the header entry at a given time *)
Definition text_now os (t : bytes) : Prop :=
  (exists e, last_def os [] [] e /\ t = e_str e) \/ (no_def os [] [] /\ t = []).
Lemma text_now_fun os t t' : text_now os t -> text_now os t' -> t = t'.
Proof.
  intros [(e & L & ->)|[N ->]] [(e' & L' & ->)|[N' ->]]; try reflexivity.
  - rewrite (last_def_fun _ _ _ _ _ L L'). reflexivity.
  - destruct (last_no _ _ _ _ L N').
  - destruct (last_no _ _ _ _ L' N).
Qed.
Lemma text_now_ex os : exists t, text_now os t.
Proof.
  destruct (last_or_none os [] []) as [[e L]|N]; [exists (e_str e); left; eauto|exists []; right; auto].
Qed.
Lemma header_text_fun os t t' : header_text os t -> header_text os t' -> t = t'.
Proof.
  assert (ap : forall (os1 : list (fop A)) o os2 os1' o' os2', os1 ++ o :: os2 = os1' ++ o' :: os2' ->
    (os1 = os1' /\ o = o') \/ (exists z, os1' = os1 ++ o :: z) \/ (exists z, os1 = os1' ++ o' :: z)).
  { clear. induction os1 as [|a os1 IH]; intros o os2 [|b os1'] o' os2' E; cbn in E; injection E as <- E.
    - auto.
    - right. left. exists os1'. reflexivity.
    - right. right. exists os1. reflexivity.
    - destruct (IH _ _ _ _ _ E) as [[-> ->]|[[z ->]|[z ->]]]; try (left; split; reflexivity); right; [left|right]; exists z; reflexivity. }
  intros [t1 Q H|os1 o os2 t1 -> Q T H] H'; destruct H' as [t2 Q2 H2|os1' o' os2' t2 E Q2 T2 H2].
  - exact (text_now_fun _ _ _ H H2).
  - exfalso. exact (Q _ _ _ E T2).
  - exfalso. exact (Q2 _ _ _ eq_refl T).
  - destruct (ap _ _ _ _ _ _ E) as [[-> ->]|[[z ->]|[z ->]]].
    + exact (text_now_fun _ _ _ H H2).
    + exfalso. exact (Q2 _ _ _ eq_refl T).
    + exfalso. exact (Q _ _ _ eq_refl T2).
Qed.
Definition rule_of (t : bytes) : plural := parse_plural (or_empty (header_value t H_plural_forms)).
Definition text_headers (f : file) : gmap bytes :=
  match mget (key [] []) (f_entries f) with Some e => parse_headers (e_str e) | None => [] end.
Lemma parse_headers_nil : parse_headers [] = [].
Proof. reflexivity. Qed.
Lemma text_headers_now os t f : f_entries f = f_entries (run os) -> text_now os t -> text_headers f = parse_headers t.
Proof.
  intros E H. unfold text_headers. rewrite E. destruct (run_get os [] []) as [H1 H2].
  destruct H as [(e & L & ->)|[N ->]]; [rewrite (H1 e L)|rewrite (H2 N)]; reflexivity.
Qed.
(** caches are either empty or hold what the text [t] says *)
Definition cached (f : file) (t : bytes) : Prop :=
  f_headers f = Some (parse_headers t) /\ (f_plural f = None \/ f_plural f = Some (rule_of t)).
Lemma init_header_cached f t : cached f t -> cached (init_header f) t.
Proof. intros [H1 H2]. unfold init_header. rewrite H1. split; assumption. Qed.
Lemma init_plural_cached f t : cached f t -> cached (init_plural f) t /\ f_plural (init_plural f) = Some (rule_of t).
Proof.
  intros [H1 H2]. unfold init_plural. destruct (f_plural f) as [p|] eqn:E.
  - split; [split; [exact H1|rewrite E; exact H2]|]. rewrite E. destruct H2 as [H2|H2]; [discriminate|exact H2].
  - unfold get_header, init_header. rewrite H1. cbn. rewrite H1. rewrite parse_headers_get.
    split; [split; [reflexivity|right; reflexivity]|reflexivity].
Qed.
Lemma init_header_fresh f : f_headers f = None -> f_plural f = None ->
  f_headers (init_header f) = Some (text_headers f) /\ f_plural (init_header f) = None.
Proof. intros H1 H2. unfold init_header. rewrite H1. cbn. auto. Qed.
Lemma step_cached f o t : cached f t -> cached (step f o) t.
Proof.
  intros C. destruct o; cbn [FileSpec.step].
  - unfold add_entry. destruct (is_header e).
    + apply init_plural_cached, init_header_cached. exact C.
    + exact C.
  - cbn. apply init_header_cached, C.
  - rewrite lang_file. apply init_header_cached, C.
  - exact C.
  - destruct (xn_file f c i i2 n args) as [-> | ->]; [exact C|apply init_plural_cached, C].
Qed.
Lemma touch_step os o t : f_headers (run os) = None -> f_plural (run os) = None -> 
  touches os o -> text_now (os ++ [o]) t -> cached (step (run os) o) t.
Proof.
  intros F1 F2 T H.
  assert (fresh : forall f, f_headers f = None -> f_plural f = None -> f_entries f = f_entries (run (os ++ [o])) -> cached (init_header f) t).
  { intros f G1 G2 G3. destruct (init_header_fresh f G1 G2) as [E1 E2]. split; [|left; exact E2].
    rewrite E1. f_equal. apply (text_headers_now _ _ _ G3 H). }
  rewrite run_snoc, step_entries in fresh.
  destruct o; cbn [FileSpec.step touches] in *.
  - unfold add_entry, is_header. rewrite T. cbn [is_empty].
    apply init_plural_cached, fresh; cbn; assumption || reflexivity.
  - cbn. apply fresh; assumption || reflexivity.
  - rewrite lang_file. apply fresh; assumption || reflexivity.
  - destruct T.
  - destruct T as (e & L & N).
    unfold f_xn64. rewrite (proj1 (run_get os c i) e L).
    destruct (is_empty (e_id2 e) && match e_strn e with [] => true | _ => false end) eqn:E.
    { exfalso. apply N. apply andb_prop in E as [E1 E2]. destruct (e_id2 e), (e_strn e); try discriminate; auto. }
    assert (C : cached (init_plural (run os)) t).
    { specialize (fresh (run os) F1 F2 eq_refl). apply init_plural_cached in fresh.
      destruct fresh as [Hc _]. revert Hc. unfold init_plural at 2. rewrite F2. cbn [f_plural f_headers f_entries get_header snd].
      unfold init_plural at 1. rewrite (proj2 (init_header_fresh _ F1 F2)).
      unfold get_header. intros Hc.
      assert (I : init_header (init_header (run os)) = init_header (run os)).
      { unfold init_header at 1. rewrite (proj1 (init_header_fresh _ F1 F2)). reflexivity. }
      rewrite I in Hc. exact Hc. }
    destruct (f_plural (init_plural (run os))) as [p|]; [|exact C].
    destruct (_ <=? _); [exact C|]. destruct (_ || _); [exact C|].
    destruct (nth_error _ _) as [s|]; [|exact C]. destruct (is_empty s); exact C.
Qed.
Lemma quiet_step os o : f_headers (run os) = None -> f_plural (run os) = None ->
  ~ touches os o -> f_headers (step (run os) o) = None /\ f_plural (step (run os) o) = None.
Proof.
  intros F1 F2 T. destruct o; cbn [FileSpec.step touches] in *; try tauto.
  - unfold add_entry, is_header. destruct (e_id e); [congruence|]. cbn. auto.
  - unfold f_xn64. destruct (run_get_cases os c i) as [(e & L & ->)|[_ ->]]; [|cbn; auto].
    destruct (e_id2 e) eqn:E1, (e_strn e) eqn:E2; cbn; auto; exfalso; apply T; exists e; (split; [exact L|]); rewrite E1, E2; intros [? ?]; discriminate.
Qed.
Lemma touches_dec os o : touches os o \/ ~ touches os o.
Proof.
  destruct o; cbn; auto.
  - destruct (e_id e); [left; reflexivity|right; discriminate].
  - destruct (last_or_none os c i) as [[e L]|N].
    + destruct (e_id2 e) eqn:E1; [destruct (e_strn e) eqn:E2|].
      * right. intros (e' & L' & F). rewrite (last_def_fun _ _ _ _ _ L' L) in F. apply F. auto.
      * left. exists e. split; [exact L|]. rewrite E2. intros [_ ?]; discriminate.
      * left. exists e. split; [exact L|]. rewrite E1. intros [? _]; discriminate.
    + right. intros (e & L & _). exact (last_no _ _ _ _ L N).
Qed.
Lemma quiet_snoc os o : quiet os -> ~ touches os o -> quiet (os ++ [o]).
Proof.
  intros Q T os1 o1 os2 E. destruct os2 as [|x os2 _] using rev_ind.
  - apply app_inj_tail in E as [<- <-]. exact T.
  - change (os1 ++ o1 :: os2 ++ [x]) with (os1 ++ (o1 :: os2) ++ [x]) in E. rewrite app_assoc in E.
    apply app_inj_tail in E as [E _]. exact (Q _ _ _ E).
Qed.
Lemma run_state os :
  (quiet os /\ f_headers (run os) = None /\ f_plural (run os) = None)
  \/ (exists t os1 o os2, os = os1 ++ o :: os2 /\ quiet os1 /\ touches os1 o /\ text_now (os1 ++ [o]) t /\ cached (run os) t).
Proof.
  induction os as [|o os IH] using rev_ind.
  - left. split; [|split; reflexivity]. intros os1 o os2 E. destruct os1; discriminate.
  - destruct IH as [(Q & F1 & F2)|(t & os1 & o1 & os2 & -> & Q & T & H & C)].
    + rewrite run_snoc. destruct (touches_dec os o) as [T|T].
      * right. destruct (text_now_ex (os ++ [o])) as [t Ht].
        exists t, os, o, []. repeat split; auto; apply (touch_step os o t F1 F2 T Ht).
      * left. split; [apply quiet_snoc; assumption|apply quiet_step; assumption].
    + right. exists t, os1, o1, (os2 ++ [o]). rewrite run_snoc. split; [rewrite <- app_assoc; reflexivity|].
      repeat split; auto; apply (step_cached _ o t C).
Qed.
(** what a reader of headers and rules sees *)
Lemma run_header os t k : header_text os t -> fst (get_header k (run os)) = header_value t k.
Proof.
  intros H. destruct (run_state os) as [(Q & F1 & F2)|(t' & os1 & o & os2 & -> & Q & T & H' & [C _])].
  - destruct (text_now_ex os) as [t' Ht']. assert (t = t') as -> by (apply (header_text_fun os); [exact H|apply H_now; assumption]).
    cbn. rewrite (proj1 (init_header_fresh _ F1 F2)). rewrite (text_headers_now os t' _ eq_refl Ht'). apply parse_headers_get.
  - assert (t = t') as -> by (apply (header_text_fun (os1 ++ o :: os2)); [exact H|eapply H_then; eauto]).
    cbn. unfold init_header. rewrite C, C. apply parse_headers_get.
Qed.
Lemma run_lang os t : header_text os t -> fst (lang (run os)) = or_empty (header_value t (B "Language")).
Proof.
  intros H. unfold lang. destruct (get_header H_language (run os)) as [v f] eqn:E. cbn.
  change v with (fst (v, f)). rewrite <- E. rewrite (run_header os t _ H). reflexivity.
Qed.
Lemma run_plural os t : header_text os t -> f_plural (init_plural (run os)) = Some (rule_of t).
Proof.
  intros H. destruct (run_state os) as [(Q & F1 & F2)|(t' & os1 & o & os2 & -> & Q & T & H' & C)].
  - destruct (text_now_ex os) as [t' Ht']. assert (t = t') as -> by (apply (header_text_fun os); [exact H|apply H_now; assumption]).
    unfold init_plural. rewrite F2. cbn. rewrite (proj1 (init_header_fresh _ F1 F2)). rewrite (text_headers_now os t' _ eq_refl Ht').
    rewrite parse_headers_get. reflexivity.
  - assert (t = t') as -> by (apply (header_text_fun (os1 ++ o :: os2)); [exact H|eapply H_then; eauto]).
    apply init_plural_cached, C.
Qed.
Lemma header_text_ex os : exists t, header_text os t.
Proof.
  destruct (run_state os) as [(Q & F1 & F2)|(t' & os1 & o & os2 & -> & Q & T & H' & C)].
  - destruct (text_now_ex os) as [t Ht]. exists t. apply H_now; assumption.
  - exists t'. eapply H_then; eauto.
Qed.

(** ** XN64 *)
Definition plural_entry (e : entry) : Prop := ~ (e_id2 e = [] /\ e_strn e = []).
Lemma plural_entry_b e : plural_entry e -> is_empty (e_id2 e) && match e_strn e with [] => true | _ => false end = false.
Proof.
  unfold plural_entry. destruct (e_id2 e), (e_strn e); cbn; auto. intros H. exfalso. apply H. auto.
Qed.
Lemma rule_cases os :
  (exists d exp, rule os d exp /\ f_plural (init_plural (run os)) = Some {| p_total := d; p_expr := Some exp |})
  \/ ((forall d exp, ~ rule os d exp) /\ f_plural (init_plural (run os)) = Some {| p_total := 0; p_expr := None |}).
Proof.
  destruct (header_text_ex os) as [t Ht]. rewrite (run_plural os t Ht). unfold rule_of.
  destruct (header_value t H_plural_forms) as [v|] eqn:E.
  - cbn [or_empty]. destruct (parse_plural_cases v) as [(d & exp & F & ->)|[N ->]].
    + left. exists d, exp. split; [|reflexivity]. exists t, v. auto.
    + right. split; [|reflexivity]. intros d exp (t' & v' & Ht' & E' & F).
      rewrite (header_text_fun _ _ _ Ht' Ht) in E'. unfold H_plural_forms in E. rewrite E in E'. injection E' as <-. exact (N _ _ F).
  - right. split; [|reflexivity]. intros d exp (t' & v' & Ht' & E' & F).
    rewrite (header_text_fun _ _ _ Ht' Ht) in E'. unfold H_plural_forms in E. congruence.
Qed.
Lemma rule_state os d exp : rule os d exp -> f_plural (init_plural (run os)) = Some {| p_total := d; p_expr := Some exp |}.
Proof.
  intros (t & v & Ht & E & F). rewrite (run_plural os t Ht). unfold rule_of, H_plural_forms. rewrite E. cbn.
  rewrite (parse_plural_rule v d exp F). reflexivity.
Qed.
Lemma rule_digit os d exp : rule os d exp -> 0 <= d <= 9.
Proof. intros (t & v & _ & _ & F). destruct F as (? & ? & ? & ? & ? & ? & ? & ? & _ & H & _). exact H. Qed.
Lemma english_default i i2 n args : english fmt i i2 n args (default_plural fmt i i2 n args).
Proof.
  unfold english, default_plural. split.
  - intros [-> | ->]; [destruct (is_empty i2)|cbn]; reflexivity.
  - intros H1 H2. destruct i2; [congruence|]. cbn. destruct (Z.eqb_spec n 1); [contradiction|reflexivity].
Qed.
Section Xn.
Variables (os : list (fop A)) (c i i2 : bytes) (n : Z) (args : list A).
Let res := fst (f_xn64 fmt (run os) c i i2 n args).
Lemma xn_missing : no_def os c i -> res = XStr (default_plural fmt i i2 n args).
Proof.
  intros N. unfold res, f_xn64. rewrite (proj2 (run_get os c i) N). reflexivity.
Qed.
Lemma xn_single e : last_def os c i e -> e_id2 e = [] -> e_strn e = [] ->
  res = XStr (fmt (match e_str e with [] => i | s => s end) args).
Proof.
  intros L E1 E2. unfold res, f_xn64. rewrite (proj1 (run_get os c i) e L), E1, E2. cbn.
  destruct (e_str e); reflexivity.
Qed.
Lemma xn_norule e : last_def os c i e -> plural_entry e -> (forall d exp, ~ rule os d exp) -> res = XStr (default_plural fmt i i2 n args).
Proof.
  intros L P N. unfold res, f_xn64. rewrite (proj1 (run_get os c i) e L), (plural_entry_b e P).
  destruct (rule_cases os) as [(d & exp & R & _)|[_ ->]]; [destruct (N _ _ R)|]. reflexivity.
Qed.
Lemma xn_rule e d exp : last_def os c i e -> plural_entry e -> rule os d exp ->
  res = match eval exp n with
        | EvOk j => if (j <? 0) || (j >=? d) || (j >? Z.of_nat (length (e_strn e))) then XStr (default_plural fmt i i2 n args)
                    else match nth_error (e_strn e) (Z.to_nat j) with
                         | None => XPanic
                         | Some [] => XStr (default_plural fmt i i2 n args)
                         | Some s => XStr (fmt s args)
                         end
        | _ => XStr (default_plural fmt i i2 n args)
        end.
Proof.
  intros L P R. unfold res, f_xn64. rewrite (proj1 (run_get os c i) e L), (plural_entry_b e P).
  rewrite (rule_state os d exp R). cbn [p_total p_expr]. unfold plural_fn. cbn [p_expr].
  pose proof (rule_digit os d exp R) as Hd.
  destruct (Z.leb_spec d 0) as [H0|H0].
  - cbn [fst]. assert (d = 0) by lia. subst d. destruct (eval exp n) as [j| | |]; try reflexivity.
    destruct (Z.ltb_spec j 0); [reflexivity|]. cbn [orb]. destruct (j >=? 0) eqn:E; [reflexivity|]. lia.
  - destruct (eval exp n) as [j| | |]; try reflexivity.
    destruct (_ || _); [reflexivity|]. destruct (nth_error _ _) as [[|? ?]|]; reflexivity.
Qed.
End Xn.
(** ** Adding another message *)
Lemma add_xn f e c i i2 n args : joined (e_ctxt e) (e_id e) <> joined c i -> e_id e <> [] ->
  fst (f_xn64 fmt (add_entry f e) c i i2 n args) = fst (f_xn64 fmt f c i i2 n args).
Proof.
  intros D N. unfold add_entry, is_header. destruct (e_id e) as [|a l] eqn:Ei; [congruence|].
  cbn [is_empty]. set (g := {| f_entries := _; f_headers := _; f_plural := _ |}).
  assert (G : forall c' i', joined (e_ctxt e) (e_id e) <> joined c' i' -> mget (key c' i') (f_entries g) = mget (key c' i') (f_entries f)).
  { intros c' i' D'. apply mget_put_other. intros K. apply D'. symmetry. exact K. }
  assert (H0 : joined (e_ctxt e) (e_id e) <> joined [] []).
  { rewrite Ei. intros J. apply joined_header in J as [_ ?]. discriminate. }
  assert (I : f_headers (init_header g) = f_headers (init_header f)).
  { unfold init_header. change (f_headers g) with (f_headers f). destruct (f_headers f) eqn:Eh; [cbn; congruence|].
    cbn [f_headers]. rewrite (G [] [] H0). reflexivity. }
  assert (P : f_plural (init_plural g) = f_plural (init_plural f)).
  { unfold init_plural. change (f_plural g) with (f_plural f). destruct (f_plural f) eqn:Ep; [cbn; congruence|].
    unfold get_header. rewrite I. reflexivity. }
  unfold f_xn64. rewrite P, (G c i) by (rewrite Ei; exact D).
  destruct (mget (key c i) (f_entries f)) as [m|]; [|reflexivity].
  destruct (_ && _); [reflexivity|]. destruct (f_plural (init_plural f)) as [p|]; [|reflexivity].
  destruct (_ <=? _); [reflexivity|]. destruct (_ || _); [reflexivity|].
  destruct (nth_error _ _) as [s|]; [|reflexivity]. destruct (is_empty s); reflexivity.
Qed.
End Hist.

(** one header entry, and no entry with an empty id before it *)
Lemma run_any_order : forall (A : Type) (fmt : bytes -> list A -> bytes) es1 h es2 k,
  e_ctxt h = [] -> e_id h = [] -> (forall e, In e es1 -> e_id e <> []) ->
  fst (get_header k (run fmt (map OAdd (es1 ++ h :: es2)))) = header_value (e_str h) k.
Proof.
  intros A fmt es1 h es2 k Hc Hi N. apply run_header.
  rewrite map_app. cbn [map]. apply (H_then _ (map OAdd es1) (OAdd h) (map OAdd es2) _ eq_refl).
    + intros os1 o os2 E T.
      assert (I : In o (map OAdd es1)) by (rewrite E; apply in_or_app; right; left; reflexivity).
      apply in_map_iff in I as (e & <- & I). exact (N e I T).
    + exact Hi.
    + left. exists h. split; [|reflexivity]. exists (map OAdd es1), (OAdd h), []. split; [reflexivity|].
      split; [split; [reflexivity|rewrite Hc, Hi; reflexivity]|intros ? ? []].
Qed.
