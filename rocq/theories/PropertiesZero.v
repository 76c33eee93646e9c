(** C96: zero values [Translations{}] and [Translation{}], and copies of handles by value. *)
From Coq Require Import Lia.
From Verif Require Import GoStr GoStrFacts GoMap GoMapFacts FileModel FileFacts PoModel MoModel TransModel TransSpec TransFacts TransViewFacts TransLoadFacts
  ZeroModel ZeroSpec ZeroFacts ZeroRunFacts PropertiesTrans.
Import ListNotations.

Section Props.
Context {A : Type}.
Variable fmt : bytes -> list A -> bytes.
Variable norm : bytes -> bytes.
Variable d0 : bytes.
Notation now := (now fmt norm d0).
Notation zrun := (zrun fmt norm d0).
Notation handles := (handles fmt norm d0).
Notation proper := (proper fmt norm d0).
Notation unmade := (unmade fmt norm d0).
Notation unmade_tr := (unmade_tr fmt norm d0).
Notation table := (table fmt norm d0).
Implicit Types (os : list (@zop A)) (o : @zop A).

(** exactly which calls panic, after any history *)
Theorem C96_panics : forall os o, proper os -> zknown (zrun os) o ->
  (fst (zstep fmt norm (zrun os) o) = true <-> panics fmt norm d0 os o).
Proof. intros os o. apply panics_iff. Qed.
(** and what a recovered panic leaves behind: every handle as it was *)
Theorem C96_recovered : forall os o h, proper os -> zknown (zrun os) o -> panics fmt norm d0 os o -> h < handles os ->
  same_view fmt norm (now os) h (now (os ++ [o])) h /\ handles (os ++ [o]) = handles os.
Proof. intros os o h P K C. apply panic_view; auto. apply panics_iff; assumption. Qed.
(** programs without zero values: the programs of TransModel, and no panic *)
Theorem C96_ordinary : forall (os : list (@op A)), now (map ZCall os) = fold_left (do_op fmt norm) os (init d0)
  /\ forall (o : @op A), fst (zstep fmt norm (zrun (map ZCall os)) (ZCall o)) = false.
Proof.
  intros os. unfold ZeroSpec.now. rewrite calls_run. split; [reflexivity|]. intros o. rewrite step_call by (destruct o; reflexivity). reflexivity.
Qed.

(** new(Translations): one handle more, without language, domain, source locale and place for domains *)
Theorem C96_new : forall os, let h := handles os in let s := now (os ++ [ZZero]) in
  handles (os ++ [ZZero]) = S h /\ unmade (os ++ [ZZero]) h /\ h_locale s h = [] /\ h_domain s h = [] /\ h_source s h = [].
Proof.
  intros os. cbn zeta. split; [|split; [apply U_zero|]]; unfold ZeroSpec.handles, ZeroSpec.now, h_locale, h_domain, h_source, the_ts; rewrite zrun_snoc;
    cbn [zstep new_map new_ts snd z_state s_ts]; [rewrite app_length; cbn [length]; lia|]. rewrite nth_new. auto.
Qed.
(** a handle without a place for domains answers like one without domains *)
Theorem C96_zero : forall os h, proper os -> unmade os h ->
  (forall d, has_domain (now os) h d = false) /\ used_locale (now os) h = h_source (now os) h
  /\ ((forall os1 (x : @op A) os2, os = os1 ++ ZCall x :: os2 -> ~ spoils_noop x) -> source_text fmt (now os) h).
Proof.
  intros os h P U. apply unmade_run in U as [H I]; [|exact P]. destruct (zw_maps _ (zwf_run fmt norm d0 os P) _ I) as [_ E].
  assert (D : h_domains (now os) h = []) by exact E. assert (G : forall d, h_get (now os) h d = None) by (intros d; unfold h_get; rewrite D; reflexivity).
  split; [|split].
  - intros d. unfold has_domain. rewrite D. reflexivity.
  - unfold used_locale. rewrite G. reflexivity.
  - intros C. apply no_domain; [apply (clean_run fmt norm d0 os P C)|apply G].
Qed.
(** and a zero translation has no language *)
Theorem C96_zero_tr : forall os t, proper os -> unmade_tr os t -> forall l, tr_get (the_tr (now os) t) l = None.
Proof.
  intros os t P U l. apply unmade_tr_run in U. destruct (zw_trs _ (zwf_run fmt norm d0 os P) _ U) as [_ E]. unfold tr_get, ZeroSpec.now. rewrite E. reflexivity.
Qed.
(** ClearDomains makes it usable, and so are the handles D, L, Global, New and WithContext make of it *)
Theorem C96_usable : forall os o h, proper (os ++ [o]) ->
  o = ZCall (OClear h) \/ (handles os <= h < handles (os ++ [o]) /\ o <> ZZero /\ forall src, o <> ZCopy src) ->
  ~ unmade (os ++ [o]) h.
Proof.
  intros os o h P C U. apply unmade_snoc in U. apply proper_snoc in P as [P K].
  destruct C as [-> | (L & N1 & N2)].
  - destruct U as [[U _]|[(src & U & _)|[(src & U & _)|(_ & U & _)]]]; congruence.
  - destruct U as [[U _]|[(src & U & _)|[(src & -> & _)|(U & _)]]]; [congruence|exact (N2 src U)| |].
    + destruct K as [K _]. unfold ZeroSpec.handles, ZeroSpec.now in *. lia.
    + apply unmade_run in U as [U _]; [|exact P]. unfold ZeroSpec.handles, ZeroSpec.now in *. lia.
Qed.
(** BindFS that does not panic, on any handle: the domain is there exactly if it was or something loaded *)
Theorem C96_bound : forall os h d wm wp d', proper os -> h < handles os -> ~ panics fmt norm d0 os (ZCall (OBind h d wm wp)) ->
  (has_domain (now (os ++ [ZCall (OBind h d wm wp)])) h d' = true <->
   has_domain (now os) h d' = true \/ (d' = d /\ (some_loaded (B ".mo") wm \/ some_loaded (B ".po") wp))).
Proof.
  intros os h d wm wp d' P H N. rewrite <- some_loaded_iff. unfold ZeroSpec.now at 1. rewrite zrun_snoc.
  destruct (meets (zrun os) (ZCall (OBind h d wm wp))) eqn:M.
  - destruct (step_meets fmt norm _ _ M) as ([U1 U2 _ _ _] & _).
    assert (U : unmade os h) by (apply unmade_run; [exact P|split; [exact H|apply memn_in, M]]).
    assert (E : has_domain (z_state (snd (zstep fmt norm (zrun os) (ZCall (OBind h d wm wp))))) h d' = has_domain (now os) h d').
    { unfold has_domain, h_domains, the_map, the_ts. rewrite U1, U2. reflexivity. }
    rewrite E. split; [auto|]. intros [C|[_ C]]; [exact C|]. exfalso. apply N. cbn [panics]. split; [exact U|]. apply some_loaded_iff, C.
  - rewrite step_call by exact M. cbn [snd z_state do_op]. fold (now os). rewrite !has_domain_get.
    pose proof (w_maps _ (zw_wf _ (zwf_run fmt norm d0 os P)) h H) as L. fold (now os) in L.
    rewrite bind_fs_spec. cbn zeta. destruct (existsb okb _) eqn:O.
    + unfold h_get, h_domains. rewrite the_map_upd.
      match goal with |- context [t_map (the_ts ?x h)] => change (t_map (the_ts x h)) with (t_map (the_ts (now os) h)) end.
      cbn [with_files new_translation new_tr snd s_maps]. rewrite Nat.eqb_refl. rewrite (proj2 (Nat.ltb_lt _ _) L). cbn [andb].
      rewrite mget_put. destruct (beq_spec d' d) as [->|Nd]; [split; [auto|discriminate]|]. split; [auto|]. intros [C|[C _]]; [exact C|contradiction].
    + split; [left; assumption|]. intros [C|[_ C]]; [exact C|discriminate].
Qed.

(** every handle has one table *)
Theorem C96_table : forall os h, proper os -> h < handles os -> exists id, table os h id /\ forall id', table os h id' -> id' = id.
Proof.
  intros os h P H. pose proof (tabled_run fmt norm d0 os P) as T. destruct (tb_some _ _ _ _ T h H) as [id Ti]. exists id. split; [exact Ti|].
  intros id' Ti'. symmetry. apply (tb_same _ _ _ _ T h h id id' Ti Ti'). reflexivity.
Qed.
(** handles with the same table have the same domains with the same translations, whichever of them was used to bind or remove,
    and answer alike if they agree in locale, domain and source locale *)
Theorem C96_shared : forall os h h' id, proper os -> table os h id -> table os h' id ->
  (forall d, h_get (now os) h d = h_get (now os) h' d)
  /\ (h_locale (now os) h = h_locale (now os) h' -> h_domain (now os) h = h_domain (now os) h' -> h_source (now os) h = h_source (now os) h' ->
      same_view fmt norm (now os) h (now os) h').
Proof.
  intros os h h' id P T T'. split; [|apply (shared_view fmt norm d0 os h h' id P T T')].
  intros d. unfold h_get, h_domains. rewrite (same_table fmt norm d0 os h h' id P T T'). reflexivity.
Qed.
(** calls on handles with another table, and on other handles where the table is not meant, are not seen *)
Theorem C96_apart : forall os o h id, proper os -> zknown (zrun os) o -> table os h id -> ~ touches fmt norm d0 os h id o ->
  same_view fmt norm (now os) h (now (os ++ [o])) h.
Proof. intros os o h id. apply apart_view. Qed.
(** a copy starts as what was copied *)
Theorem C96_copy : forall os h, proper os -> h < handles os -> same_view fmt norm (now os) h (now (os ++ [ZCopy h])) (handles os).
Proof. intros os h. apply copy_view. Qed.
Theorem C96_assign : forall os h src, proper os -> h < handles os -> src < handles os ->
  same_view fmt norm (now os) src (now (os ++ [ZAssign h src])) h.
Proof. intros os h src. apply assign_view. Qed.
End Props.

(** ** Examples *)
Fixpoint properb_ (z : @zstate unit) (os : list (@zop unit)) : Prop :=
  match os with [] => True | o :: r => zknown z o /\ properb_ (snd (zstep ex_fmt ex_norm z o)) r end.
Lemma properb_ok os : properb_ (zinit (B "en")) os -> proper ex_fmt ex_norm (B "en") os.
Proof.
  unfold proper, ZeroModel.zrun. generalize (zinit (A := unit) (B "en")) as z. induction os as [|x os IH]; intros z H os1 o os2 E; [destruct os1; discriminate|].
  destruct H as [K H]. destruct os1 as [|y os1]; cbn [app] in E; injection E as <- E; [subst; exact K|]. cbn [fold_left]. exact (IH _ H os1 o os2 E).
Qed.
Definition ex_zero : list (@zop unit) := [ZZero; ZCopy 1; ZZeroTr; ZCopy 0].
Lemma ex_zero_proper : proper ex_fmt ex_norm (B "en") ex_zero.
Proof. apply properb_ok. vm_compute. repeat split; lia. Qed.
(** a zero value, a copy of it, a zero translation, a copy of the global handle *)
Example C96_case : proper ex_fmt ex_norm (B "en") ex_zero /\ handles ex_fmt ex_norm (B "en") ex_zero = 4
  /\ unmade ex_fmt ex_norm (B "en") ex_zero 1 /\ unmade ex_fmt ex_norm (B "en") ex_zero 2 /\ unmade_tr ex_fmt ex_norm (B "en") ex_zero 1
  /\ table ex_fmt ex_norm (B "en") ex_zero 0 (0, 0) /\ table ex_fmt ex_norm (B "en") ex_zero 3 (0, 0) /\ table ex_fmt ex_norm (B "en") ex_zero 2 (1, 1)
  /\ panics ex_fmt ex_norm (B "en") ex_zero (ZCall (OBind 2 (B "x") [] ex_walk))
  /\ panics ex_fmt ex_norm (B "en") ex_zero (ZCall (OLoadPo 1 (ex_po "zh" "ni hao")))
  /\ ~ panics ex_fmt ex_norm (B "en") ex_zero (ZCall (OBind 2 (B "x") [] []))
  /\ ~ panics ex_fmt ex_norm (B "en") (ex_zero ++ [ZCall (OClear 2)]) (ZCall (OBind 2 (B "x") [] ex_walk))
  /\ ~ touches ex_fmt ex_norm (B "en") ex_zero 0 (0, 0) (ZCall (OBind 2 (B "x") [] ex_walk))
  /\ has_domain (now ex_fmt ex_norm (B "en") (ex_zero ++ [ZCall (OBind 3 (B "x") [] ex_walk)])) 0 (B "x") = true.
Proof.
  pose proof ex_zero_proper as P. split; [exact P|]. split; [reflexivity|].
  assert (U1 : unmade ex_fmt ex_norm (B "en") [ZZero] 1) by exact (U_zero _ _ _ []).
  assert (U2 : unmade ex_fmt ex_norm (B "en") [ZZero; ZCopy 1] 2) by exact (U_copy _ _ _ [ZZero] 1 U1).
  assert (V1 : unmade ex_fmt ex_norm (B "en") ex_zero 1) by (apply unmade_run; [exact P|vm_compute; auto]).
  assert (V2 : unmade ex_fmt ex_norm (B "en") ex_zero 2) by (apply unmade_run; [exact P|vm_compute; auto]).
  assert (V3 : unmade_tr ex_fmt ex_norm (B "en") ex_zero 1) by (exists [ZZero; ZCopy 1], [ZCopy 0]; split; reflexivity).
  split; [exact V1|]. split; [exact V2|]. split; [exact V3|].
  assert (T0 : table ex_fmt ex_norm (B "en") [ZZero; ZCopy 1; ZZeroTr] 0 (0, 0)).
  { apply (T_stay _ _ _ [ZZero; ZCopy 1] ZZeroTr); [|discriminate|discriminate].
    apply (T_stay _ _ _ [ZZero] (ZCopy 1)); [|discriminate|discriminate].
    apply (T_stay _ _ _ [] ZZero); [apply T_start|discriminate|discriminate]. }
  assert (T2 : table ex_fmt ex_norm (B "en") ex_zero 0 (0, 0)) by (apply (T_stay _ _ _ [ZZero; ZCopy 1; ZZeroTr] (ZCopy 0)); [exact T0|discriminate|discriminate]).
  split; [exact T2|]. split; [exact (T_copy _ _ _ [ZZero; ZCopy 1; ZZeroTr] 0 (0, 0) T0)|].
  assert (T1 : table ex_fmt ex_norm (B "en") ex_zero 2 (1, 1)).
  { apply (T_stay _ _ _ [ZZero; ZCopy 1; ZZeroTr] (ZCopy 0)); [|discriminate|discriminate].
    apply (T_stay _ _ _ [ZZero; ZCopy 1] ZZeroTr); [|discriminate|discriminate].
    apply (T_copy _ _ _ [ZZero] 1). apply (T_made _ _ _ [] ZZero); [vm_compute; lia|discriminate]. }
  split; [exact T1|].
  assert (S1 : some_loaded (B ".po") ex_walk) by apply C38_case.
  split; [cbn [panics]; split; [exact V2|right; exact S1]|].
  split. { apply panics_iff; [exact P|vm_compute; lia|vm_compute; reflexivity]. }
  split. { intros C. apply panics_iff in C; [|exact P|vm_compute; lia]. vm_compute in C. discriminate C. }
  split. { intros [C _]. apply unmade_snoc in C. destruct C as [[C _]|[(src & C & _)|[(src & C & _)|(_ & C & _)]]]; congruence. }
  split. { intros [C|C]; [discriminate C|]. destruct (C96_table ex_fmt ex_norm (B "en") ex_zero 2 P) as (id & _ & Uq); [vm_compute; lia|].
    pose proof (Uq _ C). pose proof (Uq _ T1). congruence. }
  vm_compute. reflexivity.
Qed.
(** a copy is not independent: what is bound through it is seen through the original *)
Theorem C96_copy_refuted : exists os h d wm wp, proper ex_fmt ex_norm (B "en") (os ++ [ZCopy h; ZCall (OBind (handles ex_fmt ex_norm (B "en") os) d wm wp)])
  /\ h < handles ex_fmt ex_norm (B "en") os
  /\ ~ same_view ex_fmt ex_norm (now ex_fmt ex_norm (B "en") os) h
       (now ex_fmt ex_norm (B "en") (os ++ [ZCopy h; ZCall (OBind (handles ex_fmt ex_norm (B "en") os) d wm wp)])) h.
Proof.
  exists [], 0, (B "x"), [], ex_walk. split; [apply properb_ok; vm_compute; repeat split; lia|]. split; [vm_compute; lia|].
  intros [(_ & _ & _ & C & _) _]. specialize (C (B "x")). vm_compute in C. discriminate C.
Qed.
(** BindFS on [new(Translations)] panics: only after something was loaded, so an empty directory hides it *)
Theorem C96_new_refuted : exists wm wp, panics ex_fmt ex_norm (B "en") [ZZero] (ZCall (OBind 1 (B "x") wm wp))
  /\ ~ panics ex_fmt ex_norm (B "en") [ZZero] (ZCall (OBind 1 (B "x") [] [])).
Proof.
  exists [], ex_walk. split.
  - split; [exact (U_zero _ _ _ [])|right; apply C38_case].
  - intros [_ [(x & [] & _)|(x & [] & _)]].
Qed.
Print Assumptions C96_panics.
Print Assumptions C96_recovered.
Print Assumptions C96_ordinary.
Print Assumptions C96_new.
Print Assumptions C96_zero.
Print Assumptions C96_zero_tr.
Print Assumptions C96_usable.
Print Assumptions C96_bound.
Print Assumptions C96_table.
Print Assumptions C96_shared.
Print Assumptions C96_apart.
Print Assumptions C96_copy.
Print Assumptions C96_assign.
Print Assumptions C96_copy_refuted.
Print Assumptions C96_new_refuted.
