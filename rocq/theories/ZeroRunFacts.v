(** Facts about the histories of programs with zero values and copies. *)
From Coq Require Import Lia Permutation.
From Verif Require Import GoStr GoStrFacts GoMap GoMapFacts FileModel FileFacts PoModel MoModel TransModel TransSpec TransFacts TransFrameFacts ZeroModel ZeroSpec ZeroFacts.
Import ListNotations.

Section Facts.
Context {A : Type}.
Variable fmt : bytes -> list A -> bytes.
Variable norm : bytes -> bytes.
Variable d0 : bytes.
Notation state := (@state A).
Notation zop := (@zop A).
Notation zstep := (zstep fmt norm).
Notation zrun := (zrun fmt norm d0).
Notation now := (now fmt norm d0).
Notation handles := (handles fmt norm d0).
Notation translations := (translations fmt norm d0).
Notation proper := (proper fmt norm d0).
Notation unmade := (unmade fmt norm d0).
Notation unmade_tr := (unmade_tr fmt norm d0).
Notation table := (table fmt norm d0).
Notation touches := (touches fmt norm d0).
Notation panics := (panics fmt norm d0).
Notation same_view := (same_view fmt norm).
Implicit Types (os : list zop) (o : zop) (h t : nat).

Lemma zrun_snoc os o : zrun (os ++ [o]) = snd (zstep (zrun os) o).
Proof. unfold ZeroModel.zrun. rewrite fold_left_app. reflexivity. Qed.
Lemma proper_nil : proper [].
Proof. intros [|x os1] o os2 E; discriminate E. Qed.
Lemma proper_snoc os o : proper (os ++ [o]) <-> proper os /\ zknown (zrun os) o.
Proof.
  split.
  - intros P. split; [|apply (P os o []); reflexivity]. intros os1 x os2 ->. apply (P os1 x (os2 ++ [o])). rewrite <- app_assoc. reflexivity.
  - intros [P K] os1 x os2 E. destruct (@exists_last _ (x :: os2)) as (l & y & El); [discriminate|]. rewrite El, app_assoc in E.
    apply app_inj_tail in E as [-> ->]. destruct l as [|w l]; cbn [app] in El; injection El as <- E2.
    + rewrite app_nil_r in *. exact K.
    + apply (P os1 x l). reflexivity.
Qed.
Lemma proper_ind (P : list zop -> Prop) : P [] -> (forall os o, proper os -> zknown (zrun os) o -> P os -> P (os ++ [o])) -> forall os, proper os -> P os.
Proof.
  intros P0 PS os. induction os as [|o os IH] using rev_ind; intros H; [exact P0|]. apply proper_snoc in H as [H K]. apply PS; auto.
Qed.
Lemma zwf_init : zwf (zinit d0 : @zstate A).
Proof. split; [apply (wf_init norm)|intros m []|intros t []]. Qed.
Theorem zwf_run os : proper os -> zwf (zrun os).
Proof. revert os. apply proper_ind; [exact zwf_init|]. intros os o P K W. rewrite zrun_snoc. apply zwf_step; assumption. Qed.
Lemma kind_run os o : zknown (zrun os) o -> kind (zrun os) o (zrun (os ++ [o])).
Proof. intros K. rewrite zrun_snoc. apply kind_step, K. Qed.

(** ** Handles that are unmade *)
Lemma unmade_snoc os o h : unmade (os ++ [o]) h <->
  (o = ZZero /\ h = handles os) \/ (exists src, o = ZCopy src /\ h = handles os /\ unmade os src)
  \/ (exists src, o = ZAssign h src /\ unmade os src)
  \/ (unmade os h /\ o <> ZCall (OClear h) /\ forall src, o <> ZAssign h src).
Proof.
  split.
  - intros U. inversion U as [x E|x src Us E|x k src Us E|x y k Us N1 N2 E]; apply app_inj_tail in E as [-> <-]; subst; eauto 10.
  - intros [[-> ->]|[(src & -> & -> & Us)|[(src & -> & Us)|(U & N1 & N2)]]].
    + apply U_zero. + apply U_copy, Us. + apply U_assign, Us. + apply U_stay; assumption.
Qed.
Lemma unmade_nil h : ~ unmade [] h.
Proof. intros U. inversion U as [x E|x src Us E|x k src Us E|x y k Us N1 N2 E]; destruct x; discriminate E. Qed.
Definition nil_at os h : Prop := h < handles os /\ In (t_map (the_ts (now os) h)) (z_maps (zrun os)).
Lemma unmade_step os o : proper os -> zknown (zrun os) o -> (forall h, unmade os h <-> nil_at os h) -> forall h, unmade (os ++ [o]) h <-> nil_at (os ++ [o]) h.
Proof.
  intros P K IH h. rewrite unmade_snoc. pose proof (kind_run os o K) as Q. pose proof (zwf_run os P) as W.
  unfold nil_at in *. unfold ZeroSpec.handles, ZeroSpec.now in *. set (z := zrun os) in *. set (z' := zrun (os ++ [o])) in *.
  assert (Mm : forall m, In m (z_maps z) -> m < length (s_maps (z_state z))) by (intros m I; apply (zw_maps _ W m I)).
  assert (Mt : forall x, x < length (s_ts (z_state z)) -> t_map (the_ts (z_state z) x) < length (s_maps (z_state z))) by (apply (w_maps _ (zw_wf _ W))).
  assert (G : shape (z_state z) (z_state z') -> z_maps z' = z_maps z -> h < length (s_ts (z_state z')) /\ In (t_map (the_ts (z_state z') h)) (z_maps z')
    <-> h < length (s_ts (z_state z)) /\ In (t_map (the_ts (z_state z) h)) (z_maps z)).
  { intros [S1 S2 S3 S4] E. rewrite E. split.
    - intros [L I]. destruct (Nat.lt_ge_cases h (length (s_ts (z_state z)))) as [L'|L']; [rewrite S3 in I by exact L'; auto|].
      rewrite S4 in I by lia. apply Mm in I. lia.
    - intros [L I]. rewrite S3 by exact L. split; [lia|exact I]. }
  assert (NS : (forall src, o <> ZAssign h src) -> (forall src, o <> ZCopy src) -> o <> ZZero -> o <> ZCall (OClear h) ->
    ((o = ZZero /\ h = length (s_ts (z_state z)) \/ (exists src, o = ZCopy src /\ h = length (s_ts (z_state z)) /\ unmade os src)
      \/ (exists src, o = ZAssign h src /\ unmade os src) \/ (unmade os h /\ o <> ZCall (OClear h) /\ forall src, o <> ZAssign h src)) <-> unmade os h)).
  { intros N1 N2 N3 N4. split; [|auto 10]. intros [[C _]|[(src & C & _)|[(src & C & _)|(U & _)]]]; [contradiction|exfalso; eapply N2, C|exfalso; eapply N1, C|exact U]. }
  destruct o as [o| |src|g src|]; [destruct o as [| | | | | | | | | | |g| | | | | | | | |]|..]; unfold kind in Q; cbv zeta in Q;
    try (destruct Q as [Sh Em]; rewrite NS by discriminate; rewrite G by assumption; apply IH).
  - destruct Q as (L & Lm & Eg & Eo & Em). rewrite Em, L. split.
    + intros [[C _]|[(src & C & _)|[(src & C & _)|(U & N & _)]]]; try discriminate C. apply IH in U as [U1 U2]. split; [exact U1|].
      rewrite Eo; [exact U2|intros ->; apply N; reflexivity].
    + intros [U1 U2]. right. right. right. assert (N : h <> g). { intros ->. rewrite Eg in U2. apply Mm in U2. lia. }
      rewrite Eo in U2 by exact N. split; [apply IH; auto|split; congruence].
  - destruct Q as (S & L & Em). rewrite Em, L. split.
    + intros [[_ ->]|[(src & C & _)|[(src & C & _)|(U & _)]]]; try discriminate C.
      * split; [lia|]. rewrite (p_new _ _ S) by lia. left. lia.
      * apply IH in U as [U1 U2]. split; [lia|]. rewrite (p_old _ _ S) by exact U1. right. exact U2.
    + intros [U1 U2]. destruct (Nat.eq_dec h (length (s_ts (z_state z)))) as [->|N]; [auto|]. right. right. right.
      rewrite (p_old _ _ S) in U2 by lia. destruct U2 as [C|U2]; [specialize (Mt h); lia|]. split; [apply IH; split; [lia|exact U2]|split; discriminate].
  - destruct Q as (L & Lm & Eo & En & Em). rewrite Em, L. cbn [zknown] in K. split.
    + intros [[C _]|[(src' & C & -> & U)|[(src' & C & _)|(U & _)]]]; try discriminate C.
      * injection C as ->. apply IH in U as [U1 U2]. split; [lia|]. rewrite En. exact U2.
      * apply IH in U as [U1 U2]. split; [lia|]. rewrite Eo by exact U1. exact U2.
    + intros [U1 U2]. destruct (Nat.eq_dec h (length (s_ts (z_state z)))) as [->|N].
      * right. left. exists src. rewrite En in U2. split; [reflexivity|]. split; [reflexivity|]. apply IH. auto.
      * right. right. right. rewrite Eo in U2 by lia. split; [apply IH; split; [lia|exact U2]|split; discriminate].
  - destruct Q as (L & Lm & Eg & Eo & Em). rewrite Em, L. destruct K as [K1 K2]. split.
    + intros [[C _]|[(src' & C & _)|[(src' & C & U)|(U & _ & N)]]]; try discriminate C.
      * injection C as -> ->. apply IH in U as [U1 U2]. split; [exact K1|]. rewrite Eg. exact U2.
      * apply IH in U as [U1 U2]. split; [exact U1|]. rewrite Eo; [exact U2|]. intros ->. exact (N src eq_refl).
    + intros [U1 U2]. right. right. destruct (Nat.eq_dec h g) as [->|N].
      * left. exists src. split; [reflexivity|]. rewrite Eg in U2. apply IH. auto.
      * right. rewrite Eo in U2 by exact N. split; [apply IH; auto|]. split; congruence.
Qed.
Theorem unmade_run os : proper os -> forall h, unmade os h <-> nil_at os h.
Proof.
  revert os. refine (proper_ind (fun os => forall h, unmade os h <-> nil_at os h) _ _); [|intros; apply unmade_step; assumption]. intros h. split; [intros U; destruct (unmade_nil h U)|intros [_ []]].
Qed.
Lemma trs_step z o : z_trs (snd (zstep z o)) = match o with ZZeroTr => [length (s_trs (z_state z))] | _ => [] end ++ z_trs z.
Proof.
  destruct (meets z o) eqn:E; [destruct (step_meets fmt norm z o E) as (_ & _ & ->); destruct o as [[]| | | |]; try reflexivity; discriminate E|].
  destruct o as [o| | | |]; try reflexivity. rewrite step_call by exact E. destruct o; reflexivity.
Qed.
Theorem unmade_tr_run os t : unmade_tr os t <-> In t (z_trs (zrun os)).
Proof.
  induction os as [|o os IH] using rev_ind.
  - split; [intros ([|x os1] & os2 & E & _); discriminate E|intros []].
  - rewrite zrun_snoc, trs_step, in_app_iff, <- IH. split.
    + intros (os1 & os2 & E & ->). destruct (@exists_last _ (ZZeroTr :: os2)) as (l & y & El); [discriminate|]. rewrite El, app_assoc in E.
      apply app_inj_tail in E as [-> ->]. destruct l as [|w l]; cbn [app] in El; injection El as <- E2.
      * left. rewrite app_nil_r. left. reflexivity.
      * right. exists os1, l. auto.
    + intros [I|(os1 & os2 & -> & E)]; [|exists os1, (os2 ++ [o]); split; [rewrite <- app_assoc; reflexivity|exact E]].
      destruct o; try destruct I. * exists os, []. auto. * contradiction.
Qed.

(** ** Panics *)
Theorem panics_iff os o : proper os -> zknown (zrun os) o -> (fst (zstep (zrun os) o) = true <-> panics os o).
Proof.
  intros P K. destruct (meets (zrun os) o) eqn:E.
  - destruct o as [[]| | | |]; try discriminate E; cbn [meets] in E; cbn [ZeroModel.zstep ZeroSpec.panics]; cbv zeta; rewrite E; cbn [fst]; apply memn_in in E.
    + cbn [zknown known] in K. rewrite (proj2 (nil_bind_is fmt norm (z_state (zrun os)) domain wm wp)).
      assert (U : unmade os h) by (apply unmade_run; [exact P|split; assumption]). tauto.
    + assert (U : unmade_tr os t) by (apply unmade_tr_run, E). rewrite language_named. unfold nil_add, ZeroSpec.now. destruct (tor_lang _ x) as [l s1]. cbn [fst].
      destruct l; cbn; (split; [intros C; split; [exact U|congruence]|intros [_ C]; congruence]).
    + assert (U : unmade_tr os t) by (apply unmade_tr_run, E). rewrite (proj2 (nil_po_is fmt norm (z_state (zrun os)) content)). tauto.
    + assert (U : unmade_tr os t) by (apply unmade_tr_run, E). rewrite (proj2 (nil_mo_is fmt norm (z_state (zrun os)) content)). tauto.
    + assert (U : unmade_tr os t) by (apply unmade_tr_run, E). rewrite (proj2 (nil_fs_is fmt norm (z_state (zrun os)) wm wp)). tauto.
  - assert (F : fst (zstep (zrun os) o) = false). { destruct o; try reflexivity. rewrite step_call by exact E. reflexivity. }
    rewrite F. split; [discriminate|]. intros C. exfalso. destruct o as [[]| | | |]; try exact C; cbn [meets] in E; apply memn_out in E; apply E;
      cbn [ZeroSpec.panics] in C; destruct C as [C _]; try (apply unmade_tr_run, C). apply unmade_run in C as [_ C]; [exact C|exact P].
Qed.
Lemma untouched_view z s' h : zwf z -> untouched (z_state z) s' -> h < length (s_ts (z_state z)) -> same_view (z_state z) h s' h.
Proof.
  intros W [U1 U2 U3 U4 U5] H. apply (same_view_of fmt norm (own := false)); [apply W| |exact U4].
  apply (handle_eq _ _ _ _ (the_ts (z_state z) h) (the_ts (z_state z) h)); auto; unfold the_ts, the_map; rewrite ?U1, ?U2; auto.
Qed.
Theorem panic_view os o h : proper os -> zknown (zrun os) o -> fst (zstep (zrun os) o) = true -> h < handles os ->
  same_view (now os) h (now (os ++ [o])) h /\ handles (os ++ [o]) = handles os.
Proof.
  intros P K F H. destruct (meets (zrun os) o) eqn:E.
  - destruct (step_meets fmt norm _ o E) as (U & _). unfold ZeroSpec.handles, ZeroSpec.now in *. rewrite zrun_snoc. split; [|rewrite (n_ts _ _ U); reflexivity].
    apply untouched_view; auto. apply zwf_run, P.
  - destruct o; try discriminate F. rewrite step_call in F by exact E. discriminate F.
Qed.

(** ** Tables *)
Lemma table_snoc os o h id : table (os ++ [o]) h id <->
  (handles os <= h < handles (os ++ [o]) /\ (forall src, o <> ZCopy src) /\ id = (S (length os), h))
  \/ (o = ZCall (OClear h) /\ h < handles os /\ id = (S (length os), h))
  \/ (exists src, o = ZCopy src /\ h = handles os /\ table os src id)
  \/ (exists src, o = ZAssign h src /\ h < handles os /\ table os src id)
  \/ (table os h id /\ o <> ZCall (OClear h) /\ forall src, o <> ZAssign h src).
Proof.
  split.
  - intros T. inversion T as [E|x y k L N E|x k L E|x k i Ts E|x k src i L Ts E|x y k i Ts N1 N2 E];
      try (apply app_inj_tail in E as [-> <-]); subst; try (destruct os; discriminate); eauto 12.
  - intros [(L & N & ->)|[(-> & L & ->)|[(src & -> & -> & T)|[(src & -> & L & T)|(T & N1 & N2)]]]].
    + apply T_made; assumption. + apply T_clear, L. + apply T_copy, T. + apply T_assign; assumption. + apply T_stay; assumption.
Qed.
Lemma table_nil h id : table [] h id <-> h = 0 /\ id = (0, 0).
Proof.
  split; [|intros [-> ->]; apply T_start]. intros T.
  inversion T as [E|x y k L N E|x k L E|x k i Ts E|x k src i L Ts E|x y k i Ts N1 N2 E]; [auto|destruct x; discriminate..].
Qed.
Lemma clear_dec (o : zop) h : {o = ZCall (OClear h)} + {o <> ZCall (OClear h)}.
Proof. destruct o as [[| | | | | | | | | | |g| | | | | | | | |]| | | |]; try (right; discriminate). destruct (Nat.eq_dec g h); [left|right]; congruence. Qed.
Lemma assign_dec (o : zop) h : {src | o = ZAssign h src} + {forall src, o <> ZAssign h src}.
Proof. destruct o as [| | |g src|]; try (right; discriminate). destruct (Nat.eq_dec g h); [left; exists src|right]; congruence. Qed.
Lemma copy_dec (o : zop) : {src | o = ZCopy src} + {forall src, o <> ZCopy src}.
Proof. destruct o as [| |src| |]; try (right; discriminate). left. eauto. Qed.
Record tabled os : Prop := {
  tb_some : forall h, h < handles os -> exists id, table os h id;
  tb_in : forall h id, table os h id -> h < handles os /\ fst id <= length os;
  tb_same : forall h h' id id', table os h id -> table os h' id' -> (id = id' <-> t_map (the_ts (now os) h) = t_map (the_ts (now os) h')) }.
Lemma grows os o : zknown (zrun os) o -> handles os <= handles (os ++ [o]).
Proof.
  intros K. pose proof (kind_run os o K) as Q. unfold ZeroSpec.handles, ZeroSpec.now in *. unfold kind in Q. cbv zeta in Q.
  destruct o as [[]| | | |]; try (destruct Q as [S _]; apply (p_ts _ _ S)); destruct Q as (L & _); lia.
Qed.
Lemma tabled_step os o : proper os -> zknown (zrun os) o -> tabled os -> tabled (os ++ [o]).
Proof.
  intros P K [T1 T2 T3]. pose proof (grows os o K) as Gr. pose proof (kind_run os o K) as Q. pose proof (zwf_run os P) as W.
  assert (Mt : forall x, x < handles os -> t_map (the_ts (now os) x) < length (s_maps (now os))) by (apply (w_maps _ (zw_wf _ W))).
  (* what became of the map of a handle, by its table *)
  set (m := fun h => t_map (the_ts (now os) h)) in *. set (m' := fun h => t_map (the_ts (now (os ++ [o])) h)).
  assert (D : forall h id, table (os ++ [o]) h id ->
    (id = (S (length os), h) /\ m' h = length (s_maps (now os)) + (h - handles os) /\ (handles os <= h < handles (os ++ [o]) \/ (handles (os ++ [o]) = handles os /\ o = ZCall (OClear h))))
    \/ (exists g, table os g id /\ m' h = m g)).
  { intros h id T. apply table_snoc in T. unfold m, m', ZeroSpec.handles, ZeroSpec.now in *. unfold kind in Q. cbv zeta in Q.
    destruct T as [(L & N & ->)|[(-> & L & ->)|[(src & -> & -> & T)|[(src & -> & L & T)|(T & N1 & N2)]]]].
    - left. split; [reflexivity|]. split; [|lia].
      destruct o as [[]| |src| |]; try (destruct Q as [S _]; apply (p_new _ _ S); lia).
      + destruct Q as (L' & _). lia. + destruct (N src eq_refl). + destruct Q as (L' & _). lia.
    - left. split; [reflexivity|]. destruct Q as (L' & _ & E & _). split; [rewrite E; lia|auto].
    - right. exists src. split; [exact T|]. apply Q.
    - right. exists src. split; [exact T|]. apply Q.
    - right. exists h. split; [exact T|]. pose proof (proj1 (T2 _ _ T)) as H.
      destruct o as [[]| |src|g src|]; try (destruct Q as [S _]; apply (p_old _ _ S), H).
      + destruct Q as (_ & _ & _ & E & _). apply E. congruence.
      + destruct Q as (_ & _ & E & _). apply E, H.
      + destruct Q as (_ & _ & _ & E & _). apply E. intros ->. exact (N2 src eq_refl). }
  split.
  - intros h H. destruct (Nat.lt_ge_cases h (handles os)) as [L|L].
    + destruct (clear_dec o h) as [->|N1]; [exists (S (length os), h); apply T_clear, L|].
      destruct (assign_dec o h) as [(src & ->)|N2].
      * destruct K as [_ K]. destruct (T1 src K) as [id T]. exists id. apply T_assign; assumption.
      * destruct (T1 h L) as [id T]. exists id. apply T_stay; assumption.
    + destruct (copy_dec o) as [(src & ->)|N].
      * destruct (T1 src K) as [id T]. exists id. assert (h = handles os) as ->; [|apply T_copy, T].
        destruct Q as (E & _). unfold ZeroSpec.handles, ZeroSpec.now in *. lia.
      * exists (S (length os), h). apply T_made; auto.
  - intros h id T. rewrite app_length. cbn [length]. apply table_snoc in T.
    destruct T as [(L & N & ->)|[(-> & L & ->)|[(src & -> & -> & T)|[(src & -> & L & T)|(T & N1 & N2)]]]]; cbn [fst]; try lia.
    + destruct (T2 _ _ T). split; [|lia]. destruct Q as (E & _). unfold ZeroSpec.handles, ZeroSpec.now in *. lia.
    + destruct (T2 _ _ T). lia.
    + destruct (T2 _ _ T). lia.
  - intros h h' id id' T T'. change (id = id' <-> m' h = m' h'). apply D in T. apply D in T'.
    destruct T as [(-> & E & B)|(g & T & E)], T' as [(-> & E' & B')|(g' & T' & E')]; rewrite E, E'.
    + split; [intros [= ->]; reflexivity|]. intros C. f_equal. destruct B as [B|[B B2]], B' as [B'|[B' B2']]; try lia.
      subst o. injection B2' as ->. reflexivity.
    + pose proof (T2 _ _ T') as [X Y]. specialize (Mt _ X). split; [intros <-; cbn [fst] in Y; lia|]. intros C. exfalso. unfold m in C. lia.
    + pose proof (T2 _ _ T) as [X Y]. specialize (Mt _ X). split; [intros ->; cbn [fst] in Y; lia|]. intros C. exfalso. unfold m in C. lia.
    + exact (T3 _ _ _ _ T T').
Qed.
Theorem tabled_run os : proper os -> tabled os.
Proof.
  revert os. apply proper_ind; [|intros; apply tabled_step; assumption]. split.
  - intros h H. exists (0, 0). apply table_nil. unfold ZeroSpec.handles, ZeroSpec.now in H. cbn in H. split; [lia|reflexivity].
  - intros h id T. apply table_nil in T as [-> ->]. cbn. lia.
  - intros h h' id id' T T'. apply table_nil in T as [-> ->]. apply table_nil in T' as [-> ->]. tauto.
Qed.
(** handles with the same table agree, and calls on others are not seen *)
Theorem same_table os h h' id : proper os -> table os h id -> table os h' id -> t_map (the_ts (now os) h) = t_map (the_ts (now os) h').
Proof. intros P T T'. apply (tb_same _ (tabled_run os P) h h' id id); auto. Qed.
Theorem shared_view os h h' id : proper os -> table os h id -> table os h' id ->
  h_locale (now os) h = h_locale (now os) h' -> h_domain (now os) h = h_domain (now os) h' -> h_source (now os) h = h_source (now os) h' ->
  same_view (now os) h (now os) h'.
Proof.
  intros P T T' E1 E2 E3. apply (same_view_of fmt norm (own := false)); [apply zw_wf, zwf_run, P| |apply keeps_refl].
  pose proof (tabled_run os P) as Tb. split; auto; [|apply (tb_in _ Tb _ _ T)|apply (tb_in _ Tb _ _ T')].
  unfold h_domains. rewrite (same_table os h h' id P T T'). reflexivity.
Qed.
Theorem apart_view os o h id : proper os -> zknown (zrun os) o -> table os h id -> ~ touches os h id o ->
  same_view (now os) h (now (os ++ [o])) h.
Proof.
  intros P K T N. pose proof (zwf_run os P) as W. pose proof (tabled_run os P) as Tb. pose proof (proj1 (tb_in _ Tb _ _ T)) as H.
  unfold ZeroSpec.handles in H. destruct (meets (zrun os) o) eqn:E.
  { destruct (step_meets fmt norm _ o E) as (U & _). unfold ZeroSpec.now in *. rewrite zrun_snoc. apply untouched_view; auto. }
  assert (F : frame (now os) (now (os ++ [o])) h); [|destruct F; apply (same_view_of fmt norm (own := false)); [apply W|assumption|assumption]].
  unfold ZeroSpec.now in *. rewrite zrun_snoc. destruct o as [o| |src|g src|].
  - rewrite step_call by exact E. cbn [snd z_state]. cbn [zknown] in K. apply (@apart_frame A fmt norm false); [apply W|exact K| | |exact H].
    + split.
      * destruct o; cbn [ZeroSpec.touches direct] in *; tauto.
      * destruct o; cbn [ZeroSpec.touches on_handle] in *; intros C; try discriminate C; injection C as ->; apply N; auto.
    + destruct o; try exact I; cbn [ZeroSpec.touches known] in *; intros C; apply N; right;
        destruct (tb_some _ Tb h0 K) as [id' T']; pose proof (proj2 (tb_same _ Tb _ _ _ _ T T') C); subst id'; exact T'.
  - cbn [ZeroModel.zstep new_map snd z_state].
    change (frame (z_state (zrun os)) (fresh (z_state (zrun os)) {| t_locale := []; t_domain := []; t_map := length (s_maps (z_state (zrun os))); t_source := [] |} []) h).
    split; [apply (@fresh_old A false); [apply W|exact H]|apply fresh_keeps].
  - cbn [ZeroModel.zstep snd z_state new_ts]. set (s' := {| s_ts := _ |}).
    assert (Et : the_ts s' h = the_ts (z_state (zrun os)) h) by (apply nth_app_old, H).
    split; [|split; auto; intros; apply same_file_refl].
    split; unfold h_locale, h_domain, h_source, h_domains; rewrite ?Et; auto. cbn. rewrite app_length. lia.
  - cbn [ZeroModel.zstep snd z_state]. cbn [ZeroSpec.touches] in N. apply set_ts_frame; [congruence|exact H].
  - cbn [ZeroModel.zstep new_translation new_tr snd z_state]. split; [split; auto|]. split; auto.
    + intros t Ht. unfold the_tr. cbn [s_trs]. apply nth_app_old, Ht.
    + cbn [s_trs]. rewrite app_length. lia.
    + intros. apply same_file_refl.
Qed.
(** a copy *)
Lemma copy_view os h : proper os -> h < handles os -> same_view (now os) h (now (os ++ [ZCopy h])) (handles os).
Proof.
  intros P H. pose proof (zwf_run os P) as W. unfold ZeroSpec.handles, ZeroSpec.now in *. rewrite zrun_snoc.
  apply (same_view_of fmt norm (own := false)); [apply W| |cbn; split; auto; intros; apply same_file_refl].
  cbn [ZeroModel.zstep snd z_state new_ts]. apply (handle_eq _ _ _ _ (the_ts (z_state (zrun os)) h) (the_ts (z_state (zrun os)) h)); auto.
  - unfold the_ts. cbn [s_ts]. apply nth_new.
  - cbn. rewrite app_length. cbn. lia.
Qed.
Lemma assign_view os h src : proper os -> h < handles os -> src < handles os -> same_view (now os) src (now (os ++ [ZAssign h src])) h.
Proof.
  intros P H H'. pose proof (zwf_run os P) as W. unfold ZeroSpec.handles, ZeroSpec.now in *. rewrite zrun_snoc.
  apply (same_view_of fmt norm (own := false)); [apply W| |cbn; split; auto; intros; apply same_file_refl].
  cbn [ZeroModel.zstep snd z_state]. apply (handle_eq _ _ _ _ (the_ts (z_state (zrun os)) src) (the_ts (z_state (zrun os)) src)); auto.
  - unfold the_ts, set_ts. cbn [s_ts]. apply nth_upd_same, H.
  - cbn. rewrite upd_length. exact H.
Qed.
(** the translation for domains there are not *)
Lemma clean_run os : proper os -> (forall os1 (o : @op A) os2, os = os1 ++ ZCall o :: os2 -> ~ spoils_noop o) ->
  tr_noop < length (s_trs (now os)) /\ tr_langs (the_tr (now os) tr_noop) = [].
Proof.
  revert os. refine (proper_ind (fun os => (forall os1 (o : @op A) os2, os = os1 ++ ZCall o :: os2 -> ~ spoils_noop o) ->
    tr_noop < length (s_trs (now os)) /\ tr_langs (the_tr (now os) tr_noop) = []) _ _); [intros _; cbn; split; [unfold tr_noop; lia|reflexivity]|].
  intros os o P K IH C. destruct IH as [L E]; [intros os1 x os2 ->; apply (C os1 x (os2 ++ [o])); rewrite <- app_assoc; reflexivity|].
  unfold ZeroSpec.now in *. rewrite zrun_snoc. destruct (meets (zrun os) o) eqn:M.
  { destruct (step_meets fmt norm _ o M) as ([_ _ _ [K1 K2 _ _] _] & _). rewrite K1 by exact L. split; [lia|exact E]. }
  destruct o as [o| |src|g src|].
  - rewrite step_call by exact M. cbn [snd z_state]. destruct (same_tr fmt norm (z_state (zrun os)) o tr_noop K L) as [E1 E2]; [|rewrite E1; auto].
    specialize (C os o [] eq_refl). destruct o; cbn [into spoils_noop] in *; congruence.
  - auto. - auto. - auto.
  - cbn [ZeroModel.zstep new_translation new_tr snd z_state]. unfold the_tr in *. cbn [s_trs]. rewrite app_length, nth_app_old by exact L. split; [lia|exact E].
Qed.
Lemma calls_run (os : list (@op A)) : zrun (map ZCall os) = {| z_state := fold_left (TransModel.do_op fmt norm) os (init d0); z_maps := []; z_trs := [] |}.
Proof.
  induction os as [|o os IH] using rev_ind; [reflexivity|]. rewrite map_app. cbn [map]. rewrite zrun_snoc, IH, fold_left_app.
  rewrite step_call by (destruct o; reflexivity). reflexivity.
Qed.
End Facts.
