(** Which names the handles and translations of a state hold. *)
From Coq Require Import List Permutation Lia.
From Verif Require Import GoStr GoMap GoMapFacts FileModel PoModel MoModel TransModel TransSpec TransFacts TransLoadFacts TransQuietFacts LocaleSpec.
Import ListNotations.
Section Names.
Context {A : Type}.
Variable fmt : bytes -> list A -> bytes.
Variable norm : bytes -> bytes.
Variable system : bytes -> Prop.
Variable P : bytes -> Prop.
Hypothesis Pn : forall l, P (norm l).
Hypothesis Ps : forall d, system d -> P d.
Hypothesis Pe : P default_source.
Notation state := (@state A).
Definition named (r : tsrec) : Prop := P (t_locale r) /\ P (t_source r).
Lemma reach_on_reach s : reach_on fmt norm system s -> reach fmt norm s.
Proof. induction 1; [apply R_init|apply R_step; assumption]. Qed.
Lemma named_of (s : state) h : Forall named (s_ts s) -> h < length (s_ts s) -> named (the_ts s h).
Proof. intros F H. rewrite Forall_forall in F. apply F, nth_In, H. Qed.
Lemma clone_named (s : state) h : Forall named (s_ts s) -> h < length (s_ts s) ->
  Forall named (s_ts (snd (clone s h))) /\ fst (clone s h) < length (s_ts (snd (clone s h))).
Proof.
  intros F H. rewrite clone_eq. cbn [snd fst fresh s_ts]. rewrite app_length. cbn [length]. split; [|lia].
  apply Forall_app. split; [exact F|]. constructor; [|constructor]. apply (named_of s h F H).
Qed.
Lemma set_locale_named (s : state) h l d : system d -> Forall named (s_ts s) -> h < length (s_ts s) -> Forall named (s_ts (set_locale norm s h l d)).
Proof.
  intros D F H. unfold set_locale, set_ts. cbn [s_ts]. apply Forall_upd; [|exact F]. destruct (named_of s h F H) as [N1 N2]. split; [|exact N2].
  cbn [t_locale]. destruct l; auto.
Qed.
Lemma set_domain_named (s : state) h d : Forall named (s_ts s) -> h < length (s_ts s) -> Forall named (s_ts (set_domain s h d)).
Proof. intros F H. unfold set_domain, set_ts. cbn [s_ts]. apply Forall_upd; [|exact F]. exact (named_of s h F H). Qed.
Lemma set_ts_length (s : state) h r : length (s_ts (set_ts s h r)) = length (s_ts s).
Proof. apply upd_length. Qed.
Lemma L_named (s : state) h l d : system d -> Forall named (s_ts s) -> h < length (s_ts s) ->
  Forall named (s_ts (snd (h_L norm s h l d))) /\ fst (h_L norm s h l d) < length (s_ts (snd (h_L norm s h l d))).
Proof.
  intros D F H. destruct (clone_named s h F H) as [C1 C2]. unfold h_L. destruct (clone s h) as [r s1]. cbn [fst snd] in *. split.
  - apply set_locale_named; auto.
  - unfold set_locale. rewrite set_ts_length. exact C2.
Qed.
Lemma D_named (s : state) h d : Forall named (s_ts s) -> h < length (s_ts s) -> Forall named (s_ts (snd (h_D s h d))).
Proof.
  intros F H. destruct (clone_named s h F H) as [C1 C2]. unfold h_D. destruct (clone s h) as [r s1]. cbn [fst snd] in *.
  apply set_domain_named; auto.
Qed.
Lemma with_named (s : state) c d : system d -> Forall named (s_ts s) -> s_global s < length (s_ts s) ->
  Forall named (s_ts (snd (with_context norm s c d))).
Proof.
  intros D F H. destruct (clone_named s _ F H) as [C1 C2]. unfold with_context, g_clone. destruct (clone s (s_global s)) as [r s1]. cbn [fst snd] in *.
  assert (Q : Forall named (s_ts (snd (match get_ctx_locale c with Some l => h_L norm s1 r l d | None => (r, s1) end)))
    /\ fst (match get_ctx_locale c with Some l => h_L norm s1 r l d | None => (r, s1) end)
       < length (s_ts (snd (match get_ctx_locale c with Some l => h_L norm s1 r l d | None => (r, s1) end)))).
  { destruct (get_ctx_locale c); [apply L_named; assumption|split; assumption]. }
  destruct (match get_ctx_locale c with Some l => _ | None => _ end) as [h2 s2]. cbn [fst snd] in Q. destruct Q as [Q1 Q2].
  destruct (get_ctx_domain c); [apply D_named; assumption|exact Q1].
Qed.
Lemma load_ts (s : state) t wm wp : t < length (s_trs s) -> s_ts (snd (load_fs norm s t wm wp)) = s_ts s.
Proof. intros H. rewrite load_fs_spec by exact H. reflexivity. Qed.
Lemma bind_ts (s : state) h d wm wp : s_ts (bind_fs norm s h d wm wp) = s_ts s.
Proof. rewrite bind_fs_spec. destruct existsb; reflexivity. Qed.
Lemma lang_ts (s : state) (x : tor) : s_ts (snd (tor_lang s x)) = s_ts s.
Proof. destruct x; reflexivity. Qed.
Lemma add_ts (s : state) t (x : tor) : s_ts (snd (add_or_replace norm s t x)) = s_ts s.
Proof.
  unfold add_or_replace. pose proof (lang_ts s x) as L. destruct (tor_lang s x) as [l s1]. cbn [snd] in *. destruct l; exact L.
Qed.
Lemma xn_ts (s : state) h c i i2 n args : s_ts (snd (h_xn64 fmt s h c i i2 n args)) = s_ts s.
Proof.
  unfold h_xn64, tor_xn. destruct (the_tor s h); cbn [snd]; try reflexivity.
  destruct (f_xn64 fmt (the_file s a) c i i2 n args). reflexivity.
Qed.
Lemma reach_named s : reach_on fmt norm system s -> Forall named (s_ts s).
Proof.
  induction 1 as [d D|s o R IH K D].
  - cbn [init s_ts]. constructor; [|constructor]. split; cbn; auto.
  - pose proof (reach_wf norm fmt s (reach_on_reach s R)) as W.
    destruct o; cbn [do_op known system_op] in *.
    + cbn. apply Forall_app. split; [exact IH|]. constructor; [|constructor]. split; cbn; auto.
    + apply clone_named; [exact IH|exact (w_global _ W)].
    + exact IH.
    + apply D_named; assumption.
    + apply L_named; assumption.
    + apply with_named; [assumption..|exact (w_global _ W)].
    + apply set_domain_named; assumption.
    + apply set_locale_named; assumption.
    + unfold set_source, set_ts. cbn [s_ts]. apply Forall_upd; [|exact IH]. destruct (named_of s h IH K) as [N1 N2]. split; [exact N1|apply Pn].
    + rewrite bind_ts. exact IH.
    + unfold remove_domain. destruct domain as [|c0 domain]; [exact IH|]. destruct (negb _); [exact IH|]. cbn [snd].
      destruct (beq _ _); [|exact IH]. apply set_domain_named; assumption.
    + unfold clear_domains, new_map, set_ts. cbn [s_ts]. apply Forall_upd; [|exact IH]. apply (named_of s h IH K).
    + exact IH.
    + rewrite xn_ts. exact IH.
    + exact IH.
    + rewrite add_ts. exact IH.
    + rewrite load_po_spec by exact K. destruct (read_po content); exact IH.
    + rewrite load_mo_spec by exact K. destruct (read_mo content); exact IH.
    + rewrite load_ts by exact K. exact IH.
    + exact IH.
    + exact IH.
Qed.
(** every name a handle shows *)
Lemma names s h : reach_on fmt norm system s -> h < length (s_ts s) ->
  P (h_locale s h) /\ P (h_source s h) /\ P (used_locale s h) /\ forall out, locales norm s h out -> Forall P out.
Proof.
  intros R H. destruct (named_of s h (reach_named s R) H) as [N1 N2]. fold (h_locale s h) in N1. fold (h_source s h) in N2.
  split; [exact N1|]. split; [exact N2|]. split.
  - unfold used_locale. destruct (h_get _ _ _); [|exact N2]. destruct (tr_get _ _); assumption.
  - intros out (order & _ & O & _). apply Forall_forall. intros x Hx. apply (Permutation_in _ O) in Hx. revert Hx.
    unfold collect. assert (G : forall ls acc, Forall P acc ->
      Forall P (fold_left (fun ls l => let l := norm l in if existsb (beq l) ls then ls else ls ++ [l]) ls acc)).
    { induction ls as [|l ls IH]; intros acc F; [exact F|]. cbn [fold_left]. apply IH. destruct existsb; [exact F|].
      apply Forall_app. split; [exact F|]. constructor; [apply Pn|constructor]. }
    intros Hx. assert (G1 := G order [h_source s h] (Forall_cons _ N2 (Forall_nil _))). rewrite Forall_forall in G1. apply G1, Hx.
Qed.
End Names.
