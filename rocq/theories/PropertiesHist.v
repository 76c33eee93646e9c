(** What a handle answers follows from the calls the program has made: C109. *)
From Coq Require Import Lia.
From Verif Require Import GoStr GoStrFacts FileModel TransModel TransSpec TransFacts TransFrameFacts TransViewFacts TransLoadFacts HistSpec HistFacts PropertiesTrans.

Section Hist.
Context {A : Type}.
Variable fmt : bytes -> list A -> bytes.
Variable norm : bytes -> bytes.

(** ** C109: after any calls (that do not reach into translations and catalogs
    directly) the handles are those the record of the calls lists, *)
Theorem C109_handles : forall sys os s, ran norm fmt sys os s ->
  let p := made norm sys os in
  length (s_ts s) = length (a_handles p) /\ s_global s = a_global p
  /\ forall h x, nth_error (a_handles p) h = Some x ->
       h_locale s h = a_locale x /\ h_domain s h = a_domain x /\ h_source s h = a_source x
       /\ forall d, has_domain s h d = true <-> a_bound x d <> None.
Proof.
  intros sys os s R. cbn zeta. destruct (ran_fits fmt norm sys os s R) as [L G F]. split; [exact L|]. split; [exact G|].
  intros h x E. destruct (F h x E) as [F1 F2 F3 F4]. repeat (split; [assumption|]). intros d. rewrite has_domain_get.
  specialize (F4 d). destruct (a_bound x d), (h_get s h d); cbn [holds] in F4; try contradiction; split; congruence.
Qed.
(** each answers, in its language and domain, from the files the domain was last
    bound to, *)
Theorem C109_answers : forall sys os s h x, ran norm fmt sys os s -> nth_error (a_handles (made norm sys os)) h = Some x ->
  speaks_by norm fmt s h (a_locale x) (a_source x) (a_bound x (a_domain x)).
Proof.
  intros sys os s h x R E. destruct (ran_fits fmt norm sys os s R) as [L G F]. pose proof (F h x E) as Fx.
  assert (H : h < length (s_ts s)) by (rewrite L; eapply nth_lt, E).
  assert (W : wf_ true s) by (eapply clean_wf, ran_clean, R).
  pose proof (fits_says fmt norm s h x (a_domain x) (a_locale x) (ran_clean fmt norm _ _ _ R) H Fx) as S.
  pose proof (retarget_same s h H) as Q. rewrite (hf_locale norm s h x Fx), (hf_domain norm s h x Fx) in Q.
  assert (K : keeps s (retarget s h (a_domain x) (a_locale x))) by apply set_ts_keeps.
  pose proof (same_at_of fmt norm s h _ h W Q K) as (_ & _ & _ & _ & (U & _ & X & N)).
  unfold speaks_by, answers_from, source_text in *. rewrite U.
  destruct (a_bound x (a_domain x)) as [(wm, wp)|].
  - destruct S as [(f & Wn & (X1 & N1) & V)|(Wn & (X1 & N1) & V)].
    + left. exists f. split; [exact Wn|]. split; [|exact V]. split; intros; [rewrite X; apply X1|rewrite N; apply N1].
    + right. split; [exact Wn|]. split; [|exact V]. split; intros; [rewrite X; apply X1|rewrite N; apply N1].
  - destruct S as ((X1 & N1) & V). split; [|exact V]. split; intros; [rewrite X; apply X1|rewrite N; apply N1].
Qed.
(** and would so in any other *)
Theorem C109_would : forall sys os s h x d l, ran norm fmt sys os s -> nth_error (a_handles (made norm sys os)) h = Some x ->
  speaks_by norm fmt (retarget s h d l) h l (a_source x) (a_bound x d).
Proof.
  intros sys os s h x d l R E. destruct (ran_fits fmt norm sys os s R) as [L G F].
  apply fits_says; [eapply ran_clean, R|rewrite L; eapply nth_lt, E|apply F, E].
Qed.
(** Handles with the same record answer alike, whatever else happened in their
    programs. *)
Theorem C109_alike : forall sys os s h x sys' os' s' h' x',
  ran norm fmt sys os s -> nth_error (a_handles (made norm sys os)) h = Some x ->
  ran norm fmt sys' os' s' -> nth_error (a_handles (made norm sys' os')) h' = Some x' ->
  a_locale x = a_locale x' -> a_source x = a_source x' -> a_bound x (a_domain x) = a_bound x' (a_domain x') ->
  used_locale s h = used_locale s' h'
  /\ (forall c i args, h_x fmt s h c i args = h_x fmt s' h' c i args)
  /\ (forall c i i2 n args, fst (h_xn64 fmt s h c i i2 n args) = fst (h_xn64 fmt s' h' c i i2 n args)).
Proof.
  intros sys os s h x sys' os' s' h' x' R E R' E' El Es Eb.
  pose proof (C109_answers _ _ _ _ _ R E) as S. pose proof (C109_answers _ _ _ _ _ R' E') as S'.
  rewrite <- Eb, <- El, <- Es in S'. unfold speaks_by, answers_from, source_text in *.
  assert (Ex : forall l mos pos f, wins norm l mos pos f -> nobody norm l mos pos -> False).
  { intros l mos pos f Wn Nb. apply (wins_app norm) in Wn as (a & b & Q & Sp & _). apply (Nb f); [rewrite Q; apply in_or_app; right; left; reflexivity|exact Sp]. }
  destruct (a_bound x (a_domain x)) as [(wm, wp)|].
  - destruct S as [(f & Wn & (X & N) & V)|(Wn & (X & N) & V)], S' as [(f' & Wn' & (X' & N') & V')|(Wn' & (X' & N') & V')];
      try (exfalso; eapply Ex; eassumption).
    + assert (f = f') by (eapply last_unique; apply (wins_app norm); eassumption). subst f'.
      repeat split; intros; congruence.
    + repeat split; intros; congruence.
  - destruct S as ((X & N) & V), S' as ((X' & N') & V'). repeat split; intros; congruence.
Qed.
End Hist.
Print Assumptions C109_handles.
Print Assumptions C109_answers.
Print Assumptions C109_would.
Print Assumptions C109_alike.

(** a program that binds a domain, makes a second handle, and clears the first *)
Definition hist_ops : list (@op unit) :=
  [OBind 0 (B "shop") [] ex_walk; OD 0 (B "shop"); OClear 0; OBind 1 (B "shop") [] [ex_event "zh.po" (B "msgid")]].
Example C109_case :
  ran ex_norm ex_fmt (B "zh") hist_ops (fold_left ex_do hist_ops (init (B "zh")))
  /\ (exists x, nth_error (a_handles (made ex_norm (B "zh") hist_ops)) 1 = Some x /\ a_locale x = B "zh" /\ a_bound x (a_domain x) = Some ([], ex_walk))
  /\ (exists x, nth_error (a_handles (made ex_norm (B "zh") hist_ops)) 0 = Some x /\ a_bound x (B "shop") = None)
  /\ h_x ex_fmt (fold_left ex_do hist_ops (init (B "zh"))) 1 [] (B "hi") [] = B "ni hao".
Proof.
  split; [|split; [|split]].
  - unfold hist_ops. cbn [fold_left].
    apply (Ran_call _ _ _ [OBind 0 (B "shop") [] ex_walk; OD 0 (B "shop"); OClear 0]); [|vm_compute; lia|intros []].
    apply (Ran_call _ _ _ [OBind 0 (B "shop") [] ex_walk; OD 0 (B "shop")]); [|vm_compute; lia|intros []].
    apply (Ran_call _ _ _ [OBind 0 (B "shop") [] ex_walk]); [|vm_compute; lia|intros []].
    apply (Ran_call _ _ _ []); [apply Ran_none|vm_compute; lia|intros []].
  - eexists. split; [vm_compute; reflexivity|]. vm_compute. split; reflexivity.
  - eexists. split; [vm_compute; reflexivity|]. vm_compute. reflexivity.
  - vm_compute. reflexivity.
Qed.
