(** C110: what is read of a .po file that was not written to its end. *)
From Coq Require Import Permutation Lia.
From Verif Require Import GoStr GoMap GoMapFacts FileModel FileFacts PoModel PoSpec PoCatalogFacts PoReadFacts PoWriteFacts CutSpec CutFacts CutSavedFacts.

(** Any file: if the beginning of an accepted file is accepted, it gives the
    same definitions as the whole file up to some point, and one more, which
    is a shortened one of the whole file or has no translation. *)
Theorem C110_any x y f fx : x <> [] -> read_po (x ++ y) = PoOk f -> read_po x = PoOk fx ->
  exists es e es' e',
    (forall k, last_translated (es ++ e :: es') k (mget k (f_entries f)))
    /\ (forall k, last_translated (es ++ [e']) k (mget k (f_entries fx)))
    /\ (translated e' -> shortened e' e).
Proof.
  intros N H Hx. destruct (read_cut _ _ _ _ N H Hx) as (es & e & es' & e' & -> & -> & K).
  exists es, e, es', e'. split; [|split; [|exact K]]; intros k; apply fold_addif_last.
Qed.
Print Assumptions C110_any.

(** Any file: a cut between lines, at the end of a line or inside a comment is
    not noticed. *)
Theorem C110_unnoticed x y f : x <> [] -> read_po (x ++ y) = PoOk f ->
  line_start x \/ (exists y', y = NL :: y') \/ (exists w c, line_start w /\ x = w ++ B "#" ++ c /\ ~ In NL c) ->
  exists fx, read_po x = PoOk fx.
Proof.
  intros N H [[-> |(x' & ->)]|[(y' & ->)|(w & c & Lw & -> & Nc)]].
  - congruence.
  - eapply cut_lines, H.
  - replace (x ++ NL :: y') with ((x ++ [NL]) ++ y') in H by (rewrite <- app_assoc; reflexivity).
    destruct (cut_lines _ _ _ H) as (fx & Rx). apply (read_unended _ _ N Rx).
  - eapply cut_comment; eassumption.
Qed.
Print Assumptions C110_unnoticed.

(** Saved files: every other cut is an error. *)
Theorem C110_exactly isp f out x y : (forall e, In e (vals (f_entries f)) -> po_ok e) -> saves_po isp f out ->
  out = x ++ y -> x <> [] ->
  (exists fx, read_po x = PoOk fx) <->
  line_start x \/ (y = [] \/ exists y', y = NL :: y') \/ exists w c, line_start w /\ x = w ++ B "#" ++ c /\ ~ In NL c.
Proof.
  intros G (l & [P _] & ->) E N. apply (saved_accepted isp l x y); [|exact E|exact N].
  intros e I. apply G, (Permutation_in e P), I.
Qed.
Print Assumptions C110_exactly.

(** Saved files: the messages written before the cut are read as they are, the
    one at the cut is missing or shortened, and there is nothing else. *)
Theorem C110_saved isp f out x y fx : filed f -> (forall e, In e (vals (f_entries f)) -> po_ok e) -> saves_po isp f out ->
  out = x ++ y -> x <> [] -> read_po x = PoOk fx ->
  exists l1 e l2 x' y' e',
    sorted_entries f (l1 ++ e :: l2)
    /\ x = concat (map (po_entry isp) l1) ++ x' /\ x' <> [] /\ po_entry isp e = x' ++ y'
    /\ (forall k o, mget k (f_entries fx) = Some o <->
         (In o l1 /\ e_key o = k /\ translated o) \/ (o = e' /\ e_key e = k /\ translated e'))
    /\ (translated e' -> shortened e' e).
Proof.
  intros F G (l & S & ->) E N Hx. pose proof S as [P _].
  assert (Gl : forall a, In a l -> po_ok a) by (intros a I; apply G, (Permutation_in a P), I).
  destruct (saved_cut isp l x y fx Gl E N Hx) as (l1 & e & l2 & x' & y' & e' & -> & -> & Nx & Ee & -> & K).
  exists l1, e, l2, x', y', e'. split; [exact S|]. split; [reflexivity|]. split; [exact Nx|]. split; [exact Ee|]. split; [|exact K].
  assert (U : forall a b, In a (l1 ++ e :: l2) -> In b (l1 ++ e :: l2) -> e_key a = e_key b -> a = b).
  { intros a b Ia Ib Eab. apply (Permutation_in _ P) in Ia, Ib. apply filed_in in Ia; [|exact F]. apply filed_in in Ib; [|exact F].
    rewrite Eab in Ia. congruence. }
  assert (ND : NoDup (l1 ++ e :: l2)).
  { apply (Permutation_NoDup (Permutation_sym P)). destruct F as [ND FK].
    apply (NoDup_map_inv e_key). replace (map e_key (vals (f_entries f))) with (keys (f_entries f)); [exact ND|].
    unfold keys, vals. rewrite map_map. apply map_ext_in. intros [k v] I. apply (FK k v I). }
  assert (Ke : translated e' -> e_key e' = e_key e).
  { intros T. destruct (K T) as ([= _ E1 E2 _ _] & _). unfold e_key. congruence. }
  assert (Ne : ~ In e l1).
  { intros I. apply NoDup_remove_2 in ND. apply ND, in_or_app. auto. }
  intros k o. pose proof (fold_addif_last (l1 ++ [e']) k) as H. split.
  - intros Eo. rewrite Eo in H. destruct H as (a & b & El & Ko & T & _).
    assert (In o (l1 ++ [e'])) as I by (rewrite El; apply in_or_app; right; left; reflexivity).
    apply in_app_or in I as [I|[<-|[]]]; [auto|]. right. split; [reflexivity|]. split; [rewrite <- Ke by exact T; exact Ko|exact T].
  - intros D. destruct (mget k (f_entries (fold_left (addif false) (l1 ++ [e']) new_file))) as [o'|].
    + f_equal. destruct H as (a & b & El & Ko & T & _).
      assert (In o' (l1 ++ [e'])) as I by (rewrite El; apply in_or_app; right; left; reflexivity).
      assert (forall u v, In u l1 -> In v l1 -> e_key u = e_key v -> u = v) as U1 by (intros u v Iu Iv; apply U; apply in_or_app; auto).
      assert (forall u, In u l1 -> e_key u <> e_key e) as U2.
      { intros u Iu Ek. apply Ne. replace e with u; [exact Iu|]. apply U; [apply in_or_app; auto|apply in_or_app; right; left; reflexivity|exact Ek]. }
      apply in_app_or in I as [I|[<-|[]]]; destruct D as [(Io & Kk & To)|(-> & Kk & To)].
      * apply U1; auto. congruence.
      * exfalso. apply (U2 o' I). congruence.
      * exfalso. apply (U2 o Io). rewrite <- (Ke T). congruence.
      * reflexivity.
    + exfalso. destruct D as [(Io & Kk & To)|(-> & Kk & To)].
      * apply (H o); [apply in_or_app; auto|exact Kk|exact To].
      * apply (H e'); [apply in_or_app; right; left; reflexivity|rewrite Ke by exact To; exact Kk|exact To].
Qed.
Print Assumptions C110_saved.

(** Seen from the messages: whatever is read is a message of the catalog with
    its translation or a beginning of it, and all but one are whole. *)
Theorem C110_messages isp f out x y fx : filed f -> (forall e, In e (vals (f_entries f)) -> po_ok e) -> saves_po isp f out ->
  out = x ++ y -> x <> [] -> read_po x = PoOk fx ->
  exists cut, forall k o, mget k (f_entries fx) = Some o ->
    exists e, mget k (f_entries f) = Some e /\ shortened o e /\ (k <> cut -> o = e).
Proof.
  intros F G S E N Hx. destruct (C110_saved isp f out x y fx F G S E N Hx) as (l1 & e & l2 & x' & y' & e' & [P _] & _ & _ & _ & H & K).
  exists (e_key e). intros k o Ho. apply H in Ho as [(I & Kk & T)|(-> & Kk & T)].
  - exists o. split; [|split; [apply shortened_refl|reflexivity]]. rewrite <- Kk. apply filed_in; [exact F|].
    apply (Permutation_in o P), in_or_app. auto.
  - exists e. split; [|split; [apply K, T|congruence]]. rewrite <- Kk. apply filed_in; [exact F|].
    apply (Permutation_in e P), in_or_app. right; left; reflexivity.
Qed.
Print Assumptions C110_messages.

(** A reader that always noticed the missing end would be better: this one
    takes half a translation for the whole. *)
Definition two_lines : entry :=
  {| e_cmts := [B "# greeting"]; e_ctxt := []; e_id := B "hello"; e_plural := false; e_id2 := [];
     e_str := B "bon" ++ [NL] ++ B "jour"; e_strn := [] |}.
Definition two_file : file := {| f_entries := [(e_key two_lines, two_lines)]; f_headers := None; f_plural := None |}.
Theorem C110_noticed_refuted : exists isp f out x y fx o e k,
  filed f /\ (forall e, In e (vals (f_entries f)) -> po_ok e) /\ saves_po isp f out /\ out = x ++ y /\ x <> []
  /\ read_po x = PoOk fx /\ mget k (f_entries fx) = Some o /\ mget k (f_entries f) = Some e
  /\ e_str o = B "bon" ++ [NL] /\ e_str e = B "bon" ++ [NL] ++ B "jour".
Proof.
  set (isp := fun _ : N => true). set (out := po_entry isp two_lines). set (n := length out - 8).
  exists isp, two_file, out, (firstn n out), (skipn n out).
  destruct (read_po (firstn n out)) as [fx| | |] eqn:R; [|vm_compute in R; discriminate..].
  exists fx, {| e_cmts := [B "# greeting"]; e_ctxt := []; e_id := B "hello"; e_plural := false; e_id2 := []; e_str := B "bon" ++ [NL]; e_strn := [] |},
    two_lines, (e_key two_lines).
  split; [split; [apply NoDup_cons; [intros []|apply NoDup_nil]|intros k e [[= <- <-]|[]]; reflexivity]|].
  split. { intros e [<-|[]]. split; [|split; [right; reflexivity|right; reflexivity]]. intros c [<-|[]]. split; [eexists; reflexivity|].
    split; intros I; vm_compute in I; repeat (destruct I as [I|I]; [discriminate I|]); destruct I. }
  split. { exists [two_lines]. split; [split; [apply Permutation_refl|cbn; split; [intros x []|exact I]]|]. unfold out. symmetry. apply app_nil_r. }
  split; [symmetry; apply firstn_skipn|]. split; [vm_compute; discriminate|]. split; [reflexivity|].
  split; [|split; [|split; reflexivity]].
  - vm_compute in R. injection R as <-. vm_compute. reflexivity.
  - vm_compute. reflexivity.
Qed.
Print Assumptions C110_noticed_refuted.

(** Non-vacuity: the file of the witness, cut inside the comment, inside the
    first string and behind it. *)
Example C110_case :
  let out := po_entry (fun _ => true) two_lines in
  out = B "# greeting" ++ [NL] ++ B "msgid ""hello""" ++ [NL] ++ B "msgstr """"" ++ [NL] ++ B """bon\n""" ++ [NL] ++ B """jour""" ++ [NL; NL]
  /\ (exists fx, read_po (firstn 5 out) = PoOk fx /\ f_entries fx = [])
  /\ read_po (firstn 20 out) = PoErr
  /\ (exists fx, read_po (firstn 43 out) = PoOk fx /\ map e_str (vals (f_entries fx)) = [B "bon" ++ [NL]])
  /\ (exists fx, read_po (firstn 50 out) = PoOk fx /\ map e_str (vals (f_entries fx)) = [B "bon" ++ [NL] ++ B "jour"]).
Proof.
  cbv zeta. split; [vm_compute; reflexivity|]. split; [eexists; split; vm_compute; reflexivity|].
  split; [vm_compute; reflexivity|]. split; eexists; split; vm_compute; reflexivity.
Qed.
(** Non-vacuity: plural forms; two forms are left, the second one half. *)
Definition three_forms : entry :=
  {| e_cmts := []; e_ctxt := B "c"; e_id := B "a"; e_plural := true; e_id2 := B "b"; e_str := [];
     e_strn := [B "x"; B "y" ++ [NL] ++ B "z"; B "w"] |}.
Example C110_forms_case :
  let out := po_entry (fun _ => true) three_forms in
  exists n fx e', read_po (firstn n out) = PoOk fx /\ mget (e_key three_forms) (f_entries fx) = Some e'
    /\ e_strn e' = [B "x"; B "y" ++ [NL]] /\ shortened e' three_forms.
Proof.
  cbv zeta. exists 72. eexists _, _. split; [vm_compute; reflexivity|]. split; [vm_compute; reflexivity|].
  split; [reflexivity|]. split; [reflexivity|]. split; [exists []; reflexivity|].
  intros [|[|[|i]]] v H; try discriminate H; injection H as <-.
  - exists []. auto.
  - exists (B "z"). split; [reflexivity|cbn; lia].
Qed.
