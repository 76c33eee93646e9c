(** HandleAnswerFacts along an execution of several goroutines. *)
From Coq Require Import Lia Arith List.
From Verif Require Import GoStr GoStrFacts GoMap GoMapFacts FileModel PoReadFacts TransModel TransSpec TransFacts TransQuietFacts ConcModel
  HandleConcModel HandleConcSpec HandleConcFacts HandleRaceSpec HandleRaceFacts HandleAnswerFacts.
Import ListNotations.
Local Open Scope nat_scope.
Section Facts.
Context {A : Type}.
Variable fmt : bytes -> list A -> bytes.
Variable norm : bytes -> bytes.
Notation state := (@state A).
Implicit Types s : state.
Variable h : nat.
Variable g0 : nat.
Notation view := (@view A).
Notation content := (@content A).
Notation world := (@world A).
Notation yields := (@yields A norm h g0 _).

Definition files_of s : world := {| w_file := fun a f => a < length (s_files s) /\ the_file s a = f; w_tr := fun _ _ => False |}.
Definition world_of s : world :=
  {| w_file := fun a f => a < length (s_files s) /\ the_file s a = f;
     w_tr := fun t c => t < length (s_trs s) /\ langs_is (files_of s) (tr_langs (the_tr s t)) c |}.
Lemma langs_files s ls c : langs_is (world_of s) ls c <-> langs_is (files_of s) ls c.
Proof. split; apply orel_mono; intros x y H; exact H. Qed.
Lemma world_same s s' : s_trs s' = s_trs s -> s_files s' = s_files s -> wsub (world_of s) (world_of s').
Proof.
  intros E1 E2. split; cbn [world_of w_file w_tr].
  - intros a f [H1 H2]. unfold the_file in *. rewrite E2. auto.
  - intros t c [H1 H2]. unfold the_tr in *. rewrite E1. split; [exact H1|]. eapply orel_mono; [|exact H2]. intros x y. destruct x, y; cbn [tor_is files_of w_file]; auto.
    unfold the_file. rewrite E2. auto.
Qed.
(** the loader, seen in the new state *)
Lemma add_all_is (W : world) : forall cs n m m', Forall built cs -> (forall i f, nth_error cs i = Some f -> w_file W (n + i) (init_header f)) ->
  langs_is W m m' -> langs_is W (add_all norm n cs m) (abs_all norm cs m').
Proof.
  induction cs as [|f cs IH]; intros n m m' Bu Hf Hm; [exact Hm|]. inversion Bu as [|? ? B1 B2]; subst. cbn [add_all abs_all]. apply IH; [exact B2| |].
  - intros i g E. specialize (Hf (S i) g E). rewrite Nat.add_succ_r in Hf. exact Hf.
  - pose proof (settled_lang f (settled_built f B1)) as Rd. destruct (fst (lang f)) as [|c l] eqn:El; [exact Hm|]. apply orel_put; [|exact Hm].
    cbn [tor_is]. split; [specialize (Hf 0 f eq_refl); rewrite Nat.add_0_r in Hf; exact Hf|]. apply ready_header, Rd. discriminate.
Qed.
Record local := { lv : view; lc : nat -> Prop; le : list nat; lo : list nat }.
Implicit Types L : local.
Definition yl {R} (us cs : part -> Prop) (r : R -> view -> Prop) p s L : Prop := yields us cs r p (world_of s) (lv L) (lc L) (le L) (lo L).
Record agree (us cs : part -> Prop) s L : Prop := {
  ag_locale : us Language \/ cs Language -> v_locale (lv L) = t_locale (the_ts s h);
  ag_domain : us Current \/ cs Current -> v_domain (lv L) = t_domain (the_ts s h);
  ag_source : us Source \/ cs Source -> v_source (lv L) = t_source (the_ts s h);
  ag_loaded : us Loaded \/ cs Loaded -> loaded_is (world_of s) (the_map s (t_map (the_ts s h))) (v_loaded (lv L));
  ag_cur : us Loaded \/ cs Loaded -> forall m, lc L m -> m = t_map (the_ts s h);
  ag_new : forall m, In m (le L) -> m < length (s_maps s) /\ the_map s m = [] /\ m <> t_map (the_ts s h);
  ag_own : forall a, In a (lo L) -> a < length (s_ts s) /\ a <> h }.
Record base s : Prop := { b_global : s_global s = g0; b_h : h < length (s_ts s); b_map : t_map (the_ts s h) < length (s_maps s) }.
Definition apart (cs us' cs' : part -> Prop) : Prop := forall p, cs p -> ~ (us' p \/ cs' p).
Definition goes_on {R} us cs (r : R -> view -> Prop) s L s' p' : Prop :=
  exists L', base s' /\ wsub (world_of s) (world_of s') /\ agree us cs s' L' /\ yl us cs r p' s' L'
  /\ (forall m, In m (le L') -> In m (le L) \/ length (s_maps s) <= m)
  /\ length (s_maps s) <= length (s_maps s')
  /\ (forall us' cs' L2, apart cs us' cs' -> (forall m, In m (le L) -> ~ In m (le L2)) -> agree us' cs' s L2 -> agree us' cs' s' L2).
(** a change of a field of a handle *)
Lemma step_ts {R} us cs (r : R -> view -> Prop) s L p' a x L' : base s -> a < length (s_ts s) ->
  t_map x = t_map (the_ts s a) -> (forall us' cs' L2, agree us' cs' s L2 -> (a = h -> apart cs us' cs') -> agree us' cs' (set_ts s a x) L2) ->
  agree us cs (set_ts s a x) L' -> le L' = le L -> yields us cs r p' (world_of s) (lv L') (lc L') (le L') (lo L') ->
  goes_on us cs r s L (set_ts s a x) p'.
Proof.
  intros [B1 B2 B3] La Em Ho Ag El Y. exists L'. assert (Ws : wsub (world_of s) (world_of (set_ts s a x))) by (apply world_same; reflexivity).
  split.
  { split; [exact B1|cbn [set_ts s_ts]; rewrite upd_length; exact B2|]. rewrite the_ts_set by exact La. cbn [set_ts s_maps].
    destruct (h =? a) eqn:Q; [apply Nat.eqb_eq in Q; subst a; rewrite Em|]; exact B3. }
  split; [exact Ws|]. split; [exact Ag|]. split; [eapply yields_mono; [exact Ws|exact Y]|]. split; [rewrite El; auto|]. split; [reflexivity|].
  intros us' cs' L2 Ap _ A2. apply Ho; auto.
Qed.
(** changing a field of another handle, or one [h] does not show *)
Lemma agree_ts us cs s L a x : a < length (s_ts s) -> t_map x = t_map (the_ts s a) ->
  (a = h -> (us Language \/ cs Language -> t_locale x = t_locale (the_ts s h)) /\ (us Current \/ cs Current -> t_domain x = t_domain (the_ts s h))
            /\ (us Source \/ cs Source -> t_source x = t_source (the_ts s h))) ->
  agree us cs s L -> agree us cs (set_ts s a x) L.
Proof.
  intros La Em Hx [G1 G2 G3 G4 G5 G6 G7].
  assert (Q : (us Language \/ cs Language -> t_locale (the_ts (set_ts s a x) h) = t_locale (the_ts s h)) /\ (us Current \/ cs Current -> t_domain (the_ts (set_ts s a x) h) = t_domain (the_ts s h))
            /\ (us Source \/ cs Source -> t_source (the_ts (set_ts s a x) h) = t_source (the_ts s h)) /\ t_map (the_ts (set_ts s a x) h) = t_map (the_ts s h)).
  { rewrite the_ts_set by exact La. destruct (h =? a) eqn:E; [|auto]. apply Nat.eqb_eq in E. subst a. destruct (Hx eq_refl) as (H1 & H2 & H3). auto. }
  destruct Q as (Q1 & Q2 & Q3 & Q4). split.
  - intros U. rewrite (Q1 U). auto.
  - intros U. rewrite (Q2 U). auto.
  - intros U. rewrite (Q3 U). auto.
  - rewrite Q4. intros U. apply (loaded_mono (world_of s)); [apply world_same; reflexivity|]. exact (G4 U).
  - rewrite Q4. exact G5.
  - rewrite Q4. exact G6.
  - cbn [set_ts s_ts]. rewrite upd_length. exact G7.
Qed.
Lemma y_step {R} us cs (r : R -> view -> Prop) p s L s' p' : base s -> agree us cs s L -> yl us cs r p s L -> gstep norm s p = Some (s', p') -> goes_on us cs r s L s' p'.
Proof.
  intros Bs Ag Y St. pose proof Bs as [B1 B2 B3]. pose proof Ag as [G1 G2 G3 G4 G5 G6 G7].
  assert (Stay : forall q L', yields us cs r q (world_of s) (lv L') (lc L') (le L') (lo L') -> agree us cs s L' -> le L' = le L -> goes_on us cs r s L s q).
  { intros q L' Q A' El. exists L'. split; [exact Bs|]. split; [apply wsub_refl|]. split; [exact A'|]. split; [exact Q|]. split; [rewrite El; auto|].
    split; [lia|]. auto. }
  assert (Stay1 : forall q, yields us cs r q (world_of s) (lv L) (lc L) (le L) (lo L) -> goes_on us cs r s L s q) by (intros q Q; apply (Stay q L); auto).
  unfold yl in Y. destruct p as [x|x k|x f k|x k|g k|d wm wp k]; cbn [gstep] in St; [discriminate| | | | |].
  - (* a read *) injection St as <- <-. destruct x as [|a|a|a|a|m|t|a|a|a]; cbn [HandleAnswerFacts.yields get] in *.
    + apply Stay1. rewrite B1. exact Y.
    + apply Stay1. destruct Y as [(-> & U & Y)|[_ Y]]; [rewrite <- G1 by auto|]; apply Y.
    + apply Stay1. destruct Y as [(-> & U & Y)|[_ Y]]; [rewrite <- G2 by auto|]; apply Y.
    + destruct Y as [(-> & U & Y)|[_ Y]]; [|apply Stay1, Y].
      apply (Stay _ {| lv := lv L; lc := fun x => x = t_map (the_ts s h) \/ lc L x; le := le L; lo := lo L |}); [apply Y| |reflexivity].
      split; cbn [lv lc le lo]; auto. intros U' m [-> |Hm]; [reflexivity|]. apply (G5 U' m Hm).
    + apply Stay1. destruct Y as [(-> & U & Y)|[_ Y]]; [rewrite <- G3 by auto|]; apply Y.
    + apply Stay1. destruct Y as [U [[Hc Y]|Y]]; [|apply Y]. apply Y; [apply wsub_refl|]. rewrite (G5 (or_introl U) m Hc). apply G4. auto.
    + apply Stay1. destruct Y as (c & Wt & Y). apply Y; [apply wsub_refl|]. apply langs_files. apply Wt.
    + apply Stay1. destruct Y as (f & [_ Wf] & Y). rewrite Wf. exact Y.
    + apply Stay1. destruct Y as (f & [_ Wf] & Y). rewrite Wf. exact Y.
    + apply Stay1. destruct Y as (f & [_ Wf] & Y). rewrite Wf. exact Y.
  - (* a write *) injection St as <- <-. destruct x as [|a|a|a|a|m|t|a|a|a]; cbn [HandleAnswerFacts.yields get put] in *; try contradiction.
    + destruct Y as [(-> & U & Y)|[Ia Y]].
      * rewrite (G1 (or_intror U)) in Y. apply (step_ts us cs r s L k h _ {| lv := with_l (lv L) (f (t_locale (the_ts s h))); lc := lc L; le := le L; lo := lo L |}); auto.
        -- intros us' cs' L2 A2 Ap. apply agree_ts; auto. intros _. cbn [with_locale t_locale t_domain t_source]. split; [|auto]. intros H. exfalso. apply (Ap eq_refl Language U H).
        -- assert (A' : agree (fun p => p <> Language /\ us p) (fun p => p <> Language /\ cs p) s L) by (split; try assumption; intros [[_ H]|[_ H]]; auto).
           apply (agree_ts _ _ s L h (with_locale (the_ts s h) (f (t_locale (the_ts s h)))) B2 eq_refl) in A'.
           2:{ intros _. cbn [with_locale t_locale t_domain t_source]. split; [|auto]. intros [[H _]|[H _]]; congruence. }
           destruct A' as [K1 K2 K3 K4 K5 K6 K7]. split; cbn [lv lc le lo with_l v_locale v_domain v_source v_loaded]; auto.
           ++ intros _. rewrite the_ts_set, Nat.eqb_refl by exact B2. reflexivity.
           ++ intros H. apply K2. (destruct H as [H|H]; [left|right]; (split; [discriminate|exact H])).
           ++ intros H. apply K3. (destruct H as [H|H]; [left|right]; (split; [discriminate|exact H])).
           ++ intros H. apply K4. (destruct H as [H|H]; [left|right]; (split; [discriminate|exact H])).
           ++ intros H. apply K5. (destruct H as [H|H]; [left|right]; (split; [discriminate|exact H])).
      * destruct (G7 a Ia) as [La Na]. apply (step_ts us cs r s L k a _ L); auto; intros; apply agree_ts; auto; contradiction.
    + destruct Y as [(-> & U & Y)|[Ia Y]].
      * rewrite (G2 (or_intror U)) in Y. apply (step_ts us cs r s L k h _ {| lv := with_d (lv L) (f (t_domain (the_ts s h))); lc := lc L; le := le L; lo := lo L |}); auto.
        -- intros us' cs' L2 A2 Ap. apply agree_ts; auto. intros _. cbn [with_domain t_locale t_domain t_source]. split; [auto|]. split; [|auto]. intros H. exfalso. apply (Ap eq_refl Current U H).
        -- assert (A' : agree (fun p => p <> Current /\ us p) (fun p => p <> Current /\ cs p) s L) by (split; try assumption; intros [[_ H]|[_ H]]; auto).
           apply (agree_ts _ _ s L h (with_domain (the_ts s h) (f (t_domain (the_ts s h)))) B2 eq_refl) in A'.
           2:{ intros _. cbn [with_domain t_locale t_domain t_source]. split; [auto|]. split; [|auto]. intros [[H _]|[H _]]; congruence. }
           destruct A' as [K1 K2 K3 K4 K5 K6 K7]. split; cbn [lv lc le lo with_d v_locale v_domain v_source v_loaded]; auto.
           ++ intros H. apply K1. (destruct H as [H|H]; [left|right]; (split; [discriminate|exact H])).
           ++ intros _. rewrite the_ts_set, Nat.eqb_refl by exact B2. reflexivity.
           ++ intros H. apply K3. (destruct H as [H|H]; [left|right]; (split; [discriminate|exact H])).
           ++ intros H. apply K4. (destruct H as [H|H]; [left|right]; (split; [discriminate|exact H])).
           ++ intros H. apply K5. (destruct H as [H|H]; [left|right]; (split; [discriminate|exact H])).
      * destruct (G7 a Ia) as [La Na]. apply (step_ts us cs r s L k a _ L); auto; intros; apply agree_ts; auto; contradiction.
    + (* a new map *) destruct Y as (-> & U & m & Fm & Im & Y). rewrite Fm. destruct (G6 m Im) as (Lm & Em & Nm).
      assert (Ws : wsub (world_of s) (world_of (set_ts s h (with_map (the_ts s h) m)))) by (apply world_same; reflexivity).
      assert (T : the_ts (set_ts s h (with_map (the_ts s h) m)) h = with_map (the_ts s h) m) by (rewrite the_ts_set, Nat.eqb_refl by exact B2; reflexivity).
      assert (Lt : length (s_ts (set_ts s h (with_map (the_ts s h) m))) = length (s_ts s)) by (cbn [set_ts s_ts]; apply upd_length).
      exists {| lv := with_m (lv L) []; lc := fun x => x = m; le := []; lo := lo L |}. split; [|split; [exact Ws|split; [|split; [|split; [|split]]]]].
      * split; [exact B1|rewrite Lt; exact B2|rewrite T; exact Lm].
      * split; cbn [lv lc le lo with_m v_locale v_domain v_source v_loaded]; rewrite ?T; cbn [with_map t_locale t_domain t_source t_map]; auto.
        -- intros _. change (the_map (set_ts s h (with_map (the_ts s h) m)) m) with (the_map s m). rewrite Em. constructor.
        -- contradiction.
        -- rewrite Lt. exact G7.
      * eapply yields_mono; [exact Ws|exact Y].
      * contradiction.
      * reflexivity.
      * intros us' cs' L2 Ap Dj [J1 J2 J3 J4 J5 J6 J7]. split; rewrite ?T; cbn [with_map t_locale t_domain t_source t_map]; auto.
        -- intros H. exfalso. apply (Ap Loaded U H).
        -- intros H. exfalso. apply (Ap Loaded U H).
        -- intros m' H. destruct (J6 m' H) as (Q1 & Q2 & Q3). split; [exact Q1|]. split; [exact Q2|]. intros ->. exact (Dj m Im H).
        -- rewrite Lt. exact J7.
    + destruct Y as [(-> & U & Y)|[Ia Y]].
      * rewrite (G3 (or_intror U)) in Y. apply (step_ts us cs r s L k h _ {| lv := with_s (lv L) (f (t_source (the_ts s h))); lc := lc L; le := le L; lo := lo L |}); auto.
        -- intros us' cs' L2 A2 Ap. apply agree_ts; auto. intros _. cbn [with_source t_locale t_domain t_source]. split; [auto|]. split; [auto|]. intros H. exfalso. apply (Ap eq_refl Source U H).
        -- assert (A' : agree (fun p => p <> Source /\ us p) (fun p => p <> Source /\ cs p) s L) by (split; try assumption; intros [[_ H]|[_ H]]; auto).
           apply (agree_ts _ _ s L h (with_source (the_ts s h) (f (t_source (the_ts s h)))) B2 eq_refl) in A'.
           2:{ intros _. cbn [with_source t_locale t_domain t_source]. split; [auto|]. split; [auto|]. intros [[H _]|[H _]]; congruence. }
           destruct A' as [K1 K2 K3 K4 K5 K6 K7]. split; cbn [lv lc le lo with_s v_locale v_domain v_source v_loaded]; auto.
           ++ intros H. apply K1. (destruct H as [H|H]; [left|right]; (split; [discriminate|exact H])).
           ++ intros H. apply K2. (destruct H as [H|H]; [left|right]; (split; [discriminate|exact H])).
           ++ intros _. rewrite the_ts_set, Nat.eqb_refl by exact B2. reflexivity.
           ++ intros H. apply K4. (destruct H as [H|H]; [left|right]; (split; [discriminate|exact H])).
           ++ intros H. apply K5. (destruct H as [H|H]; [left|right]; (split; [discriminate|exact H])).
      * destruct (G7 a Ia) as [La Na]. apply (step_ts us cs r s L k a _ L); auto; intros; apply agree_ts; auto; contradiction.
    + (* the map *) destruct Y as (Hc & U & f' & Ff & Y). rewrite (G5 (or_intror U) m Hc). set (m0 := t_map (the_ts s h)) in *.
      assert (Ws : wsub (world_of s) (world_of (set_map s m0 (f (the_map s m0))))) by (apply world_same; reflexivity).
      assert (T : forall x, the_map (set_map s m0 (f (the_map s m0))) x = if x =? m0 then f (the_map s m0) else the_map s x) by (intros x; apply the_map_set, B3).
      assert (Lm : length (s_maps (set_map s m0 (f (the_map s m0)))) = length (s_maps s)) by (cbn [set_map s_maps]; apply upd_length).
      exists {| lv := with_m (lv L) f'; lc := lc L; le := le L; lo := lo L |}. split; [|split; [exact Ws|split; [|split; [|split; [|split]]]]].
      * split; [exact B1|exact B2|rewrite Lm; exact B3].
      * split; cbn [lv lc le lo with_m v_locale v_domain v_source v_loaded]; auto.
        -- intros _. change (t_map (the_ts (set_map s m0 (f (the_map s m0))) h)) with m0. rewrite T, Nat.eqb_refl. apply (loaded_mono (world_of s)); [exact Ws|].
           apply Ff; [apply wsub_refl|]. apply G4. auto.
        -- intros x Hx. destruct (G6 x Hx) as (Q1 & Q2 & Q3). rewrite Lm, T. split; [exact Q1|]. split; [|exact Q3]. fold m0 in Q3. rewrite (proj2 (Nat.eqb_neq _ _) Q3). exact Q2.
      * eapply yields_mono; [exact Ws|exact Y].
      * auto.
      * rewrite Lm. reflexivity.
      * intros us' cs' L2 Ap Dj [J1 J2 J3 J4 J5 J6 J7]. split; auto.
        -- intros H. exfalso. apply (Ap Loaded U H).
        -- intros x Hx. destruct (J6 x Hx) as (Q1 & Q2 & Q3). rewrite Lm, T. split; [exact Q1|]. split; [|exact Q3]. fold m0 in Q3. rewrite (proj2 (Nat.eqb_neq _ _) Q3). exact Q2.
  - (* a new handle *) unfold new_ts in St. injection St as <- <-. cbn [HandleAnswerFacts.yields] in Y.
    match goal with |- goes_on _ _ _ _ _ ?t _ => set (s1 := t) end.
    assert (T : the_ts s1 h = the_ts s h) by (unfold the_ts, s1; cbn [s_ts]; apply nth_app_old, B2).
    assert (Lt : length (s_ts s1) = S (length (s_ts s))) by (unfold s1; cbn [s_ts]; rewrite app_length; cbn [length]; lia).
    assert (Ws : wsub (world_of s) (world_of s1)) by (apply world_same; reflexivity).
    assert (An : forall us' cs' L2, agree us' cs' s L2 -> agree us' cs' s1 L2).
    { intros us' cs' L2 [J1 J2 J3 J4 J5 J6 J7]. split; rewrite ?T; auto.
      intros a Ha. destruct (J7 a Ha). rewrite Lt. split; [lia|assumption]. }
    exists {| lv := lv L; lc := lc L; le := le L; lo := length (s_ts s) :: lo L |}. split; [|split; [exact Ws|split; [|split; [|split; [|split]]]]].
    + split; [exact B1|rewrite Lt; lia|rewrite T; exact B3].
    + destruct (An us cs L Ag) as [K1 K2 K3 K4 K5 K6 K7]. split; cbn [lv lc le lo]; auto. intros a [<-|Ha]; [rewrite Lt; lia|auto].
    + eapply yields_mono; [exact Ws|apply Y].
    + auto.
    + reflexivity.
    + intros us' cs' L2 _ _. apply An.
  - (* a new map *) unfold new_map in St. injection St as <- <-. cbn [HandleAnswerFacts.yields] in Y.
    match goal with |- goes_on _ _ _ _ _ ?t _ => set (s1 := t) end.
    assert (T : forall m, m < length (s_maps s) -> the_map s1 m = the_map s m) by (intros m Hm; unfold the_map, s1; cbn [s_maps]; apply nth_app_old, Hm).
    assert (Lm : length (s_maps s1) = S (length (s_maps s))) by (unfold s1; cbn [s_maps]; rewrite app_length; cbn [length]; lia).
    assert (Ws : wsub (world_of s) (world_of s1)) by (apply world_same; reflexivity).
    assert (An : forall us' cs' L2, agree us' cs' s L2 -> agree us' cs' s1 L2).
    { intros us' cs' L2 [J1 J2 J3 J4 J5 J6 J7]. split; auto.
      - intros H. change (t_map (the_ts s1 h)) with (t_map (the_ts s h)). rewrite T by exact B3. apply (J4 H).
      - intros m Hm. destruct (J6 m Hm) as (Q1 & Q2 & Q3). rewrite T, Lm by exact Q1. split; [lia|]. auto. }
    exists {| lv := lv L; lc := lc L; le := match g with [] => length (s_maps s) :: le L | _ => le L end; lo := lo L |}. split; [|split; [exact Ws|split; [|split; [|split; [|split]]]]].
    + split; [exact B1|exact B2|rewrite Lm; change (t_map (the_ts s1 h)) with (t_map (the_ts s h)); lia].
    + destruct (An us cs L Ag) as [K1 K2 K3 K4 K5 K6 K7]. split; cbn [lv lc le lo]; auto. intros m Hm. destruct g as [|e g]; [|auto].
      destruct Hm as [<-|Hm]; [|auto]. rewrite Lm. split; [lia|]. split; [unfold the_map, s1; cbn [s_maps]; apply nth_new|].
      change (t_map (the_ts s1 h)) with (t_map (the_ts s h)). lia.
    + eapply yields_mono; [exact Ws|apply Y].
    + cbn [le]. intros m Hm. destruct g as [|e g]; [destruct Hm as [<-|Hm]|]; auto.
    + lia.
    + intros us' cs' L2 _ _. apply An.
  - (* loading *)
    assert (Lt : length (s_trs s) < length (s_trs (snd (new_translation s d)))) by (unfold new_translation, new_tr; cbn [snd s_trs]; rewrite app_length; cbn [length]; lia).
    change (new_translation s d) with (length (s_trs s), snd (new_translation s d)) in St. cbv beta iota in St.
    rewrite load_fs_spec in St by exact Lt. injection St as <- <-. cbn [HandleAnswerFacts.yields] in Y.
    set (cat := catalogs (B ".mo") wm ++ catalogs (B ".po") wp) in *.
    destruct (new_tr_loaded norm s d cat) as (E1 & E2 & E3 & E4 & E5). set (s1 := with_files norm _ _ cat) in *.
    assert (Wf : forall a f, w_file (files_of s) a f -> w_file (files_of s1) a f).
    { intros a f [H1 H2]. cbn [files_of w_file]. unfold the_file. rewrite E5, app_length. split; [lia|]. rewrite nth_app_old by exact H1. exact H2. }
    assert (Wt : forall x c, tor_is (files_of s) x c -> tor_is (files_of s1) x c).
    { intros x c. destruct x, c; cbn [tor_is]; auto. intros [H1 H2]. split; [apply Wf, H1|exact H2]. }
    assert (Ws : wsub (world_of s) (world_of s1)).
    { split; [exact Wf|]. intros t c [H1 H2]. cbn [world_of w_tr]. unfold the_tr. rewrite E4, app_length. split; [lia|]. rewrite nth_app_old by exact H1.
      eapply orel_mono; [exact Wt|exact H2]. }
    assert (An : forall us' cs' L2, agree us' cs' s L2 -> agree us' cs' s1 L2).
    { intros us' cs' L2 [J1 J2 J3 J4 J5 J6 J7]. split; unfold the_ts, the_map in *; rewrite ?E1, ?E2; auto.
      intros H. eapply loaded_mono; [exact Ws|exact (J4 H)]. }
    assert (Lm : length (s_maps s) <= length (s_maps s1)) by (rewrite E2; reflexivity).
    assert (Bs1 : base s1) by (split; unfold the_ts; rewrite ?E1, ?E2, ?E3; assumption).
    exists L. split; [exact Bs1|]. split; [exact Ws|]. split; [apply An, Ag|]. split; [|split; [auto|split; [exact Lm|auto]]].
    apply Y; [exact Ws|]. change (length (s_trs s) < length (s_trs s1) /\ langs_is (files_of s1) (tr_langs (the_tr s1 (length (s_trs s)))) (abs_all norm cat [])). unfold the_tr. rewrite E4, app_length, nth_new. split; [cbn [length]; lia|]. cbn [tr_langs].
    apply add_all_is; [apply Forall_app; split; apply built_catalogs| |apply orel_nil].
    intros i f Ef. cbn [files_of w_file]. unfold the_file. rewrite E5, app_length, map_length.
    assert (Li : i < length cat) by (apply nth_error_Some; congruence). split; [lia|]. rewrite app_nth2 by lia. replace (length (s_files s) + i - length (s_files s)) with i by lia.
    apply nth_error_nth. rewrite nth_error_map, Ef. reflexivity.
Qed.

(** ** Every interleaving *)
Definition inv_ans {R} (W0 : world) (uss css : nat -> part -> Prop) (rs : list (R -> view -> Prop)) s (ps : list (gprog R)) (Lf : nat -> local) : Prop :=
  wsub W0 (world_of s) /\ base s /\ (forall i m, In m (le (Lf i)) -> m < length (s_maps s)) /\ (forall i j m, i <> j -> In m (le (Lf i)) -> ~ In m (le (Lf j)))
  /\ forall j p, nth_error ps j = Some p -> exists r, nth_error rs j = Some r /\ agree (uss j) (css j) s (Lf j) /\ yl (uss j) (css j) r p s (Lf j).
Definition lset (Lf : nat -> local) (j : nat) L : nat -> local := fun i => if i =? j then L else Lf i.
Lemma lset_same Lf j L : lset Lf j L j = L.
Proof. unfold lset. rewrite Nat.eqb_refl. reflexivity. Qed.
Lemma lset_other Lf j L i : i <> j -> lset Lf j L i = Lf i.
Proof. intros N. unfold lset. rewrite (proj2 (Nat.eqb_neq _ _) N). reflexivity. Qed.
Lemma ans_step {R} W0 uss css (rs : list (R -> view -> Prop)) s a p b s' p' Lf : (forall i j, i <> j -> apart (css i) (uss j) (css j)) ->
  inv_ans W0 uss css rs s (a ++ p :: b) Lf -> gstep norm s p = Some (s', p') -> exists Lf', inv_ans W0 uss css rs s' (a ++ p' :: b) Lf'.
Proof.
  intros Ap (Ws0 & Bs & Lt & Dj & Al) St. set (i := length a) in *. destruct (Al i p (nth_at a b p)) as (r & Er & Ag & Y).
  destruct (y_step (uss i) (css i) r p s (Lf i) s' p' Bs Ag Y St) as (L' & B' & Ws & Ag' & Y' & Le & Ml & Fr).
  exists (lset Lf i L'). split; [eapply wsub_trans; eassumption|]. split; [exact B'|]. split; [|split].
  - intros j m. destruct (Nat.eq_dec j i) as [->|N].
    + rewrite lset_same. intros H. apply (ag_new _ _ _ _ Ag' m H).
    + rewrite lset_other by exact N. intros H. specialize (Lt j m H). lia.
  - intros j j' m N. destruct (Nat.eq_dec j i) as [->|Nj], (Nat.eq_dec j' i) as [->|Nj']; [contradiction| | |].
    + rewrite lset_same, lset_other by exact Nj'. intros H H'. destruct (Le m H) as [H1|H1]; [exact (Dj i j' m N H1 H')|]. specialize (Lt j' m H'). lia.
    + rewrite lset_same, lset_other by exact Nj. intros H H'. destruct (Le m H') as [H1|H1]; [exact (Dj j i m N H H1)|]. specialize (Lt j m H). lia.
    + rewrite !lset_other by assumption. apply Dj, N.
  - intros j q Eq. destruct (nth_mid a b p p' j q Eq) as [[-> ->]|[N E]].
    + fold i. rewrite lset_same. exists r. auto.
    + fold i in N. rewrite lset_other by exact N. destruct (Al j q E) as (r2 & E2 & A2 & Y2). exists r2. split; [exact E2|]. split.
      * apply Fr; [apply Ap; auto|intros m; apply Dj; auto|exact A2].
      * eapply yields_mono; [exact Ws|exact Y2].
Qed.
Lemma ans_steps {R} W0 uss css (rs : list (R -> view -> Prop)) (c c' : state * list (gprog R)) : (forall i j, i <> j -> apart (css i) (uss j) (css j)) ->
  gsteps norm c c' -> (exists Lf, inv_ans W0 uss css rs (fst c) (snd c) Lf) -> exists Lf, inv_ans W0 uss css rs (fst c') (snd c') Lf.
Proof.
  intros Ap. induction 1 as [c|c s a p b s' p' St IH Ge]; intros H; [exact H|]. destruct (IH H) as [Lf Q]. cbn [fst snd] in *.
  exact (ans_step W0 uss css rs s a p b s' p' Lf Ap Q Ge).
Qed.
(** ** The handle of a state *)
Definition abs_tor s (x : @tor A) : @ctor A := match x with TNoop => CNoop | TFile a => CFile (the_file s a) | TUser u => CUser u end.
Definition abs_langs s (t : nat) : content := map (fun e => (fst e, abs_tor s (snd e))) (tr_langs (the_tr s t)).
Definition abs_map s (m : nat) : gmap content := map (fun e => (fst e, abs_langs s (snd e))) (the_map s m).
Definition view_of s : view :=
  {| v_locale := t_locale (the_ts s h); v_domain := t_domain (the_ts s h); v_loaded := abs_map s (t_map (the_ts s h)); v_source := t_source (the_ts s h) |}.
Lemma keys_map {V V'} (f : V -> V') (m : gmap V) : keys (map (fun e => (fst e, f (snd e))) m) = keys m.
Proof. unfold keys. rewrite map_map. reflexivity. Qed.
Lemma mget_map {V V'} (f : V -> V') k (m : gmap V) : mget k (map (fun e => (fst e, f (snd e))) m) = option_map f (mget k m).
Proof. induction m as [|[a x] m IH]; [reflexivity|]. cbn [map mget fst snd]. destruct (beq k a); [reflexivity|exact IH]. Qed.
Lemma abs_tr s t : calm s -> t < length (s_trs s) -> w_tr (world_of s) t (abs_langs s t).
Proof.
  intros [_ Ct] Lt. split; [exact Lt|]. split; [symmetry; apply keys_map|]. intros k. unfold abs_langs. rewrite mget_map.
  destruct (mget k (tr_langs (the_tr s t))) as [x|] eqn:E; cbn [option_map]; [|exact I]. destruct x as [|a|u]; cbn [abs_tor tor_is]; auto.
  destruct (Ct t k a E) as [La Ra]. split; [split; [exact La|reflexivity]|exact Ra].
Qed.
Lemma abs_loaded {own} s m : calm s -> wf_ own s -> loaded_is (world_of s) (the_map s m) (abs_map s m).
Proof.
  intros Cm Wf. pose proof (w_nodup s Wf m) as Nd. pose proof (w_trs s Wf m) as Tr. unfold abs_map. induction (the_map s m) as [|[d t] g IH]; [constructor|].
  cbn [keys map fst] in Nd. inversion Nd as [|? ? N1 N2]; subst. constructor.
  - split; [reflexivity|]. cbn [fst snd]. apply abs_tr; [exact Cm|]. apply (Tr d t). cbn [mget]. rewrite beq_refl. reflexivity.
  - apply IH; [exact N2|]. intros d' t' E. apply (Tr d' t'). cbn [mget]. destruct (beq_spec d' d) as [->|_]; [|exact E]. exfalso. apply N1.
    eapply mget_some_key, E.
Qed.
(** the answers of calls on [h], said without addresses, and what [h] shows then *)
Definition knows_of s (N : content) V : Prop := w_tr (world_of s) tr_noop N /\ v_locale V = t_locale (the_ts s h) /\ v_domain V = t_domain (the_ts s h)
  /\ v_source V = t_source (the_ts s h) /\ loaded_is (world_of s) (the_map s (t_map (the_ts s h))) (v_loaded V).
Lemma knows_start {own} s : calm s -> wf_ own s -> knows_of s (abs_langs s tr_noop) (view_of s).
Proof. intros Cm Wf. split; [apply abs_tr; [exact Cm|apply (w_noop s Wf)]|]. repeat (split; [reflexivity|]). apply (abs_loaded (own := own)); assumption. Qed.
Definition no_clash (qss : list (list (@rcall A))) : Prop :=
  forall i j qs qs' q q', i <> j -> nth_error qss i = Some qs -> nth_error qss j = Some qs' -> In q qs -> In q' qs' -> ~ clash q q'.
Definition users (qss : list (list (@rcall A))) (j : nat) (p : part) : Prop := exists qs q, nth_error qss j = Some qs /\ In q qs /\ uses q p.
Definition changers (qss : list (list (@rcall A))) (j : nat) (p : part) : Prop := exists qs q, nth_error qss j = Some qs /\ In q qs /\ changes q p.
(** the parts nobody changes: looked at by one more goroutine, which never does anything *)
Definition idle (qss : list (list (@rcall A))) (j : nat) (p : part) : Prop := j = length qss /\ forall i, ~ changers qss i p.
Lemma gsteps_more {R} (c c' : state * list (gprog R)) : gsteps norm c c' -> forall p, gsteps norm (fst c, snd c ++ [p]) (fst c', snd c' ++ [p]).
Proof.
  induction 1 as [c|c s a p b s' p' St IH Ge]; intros q; [constructor|]. cbn [fst snd] in *. rewrite <- app_assoc in *. cbn [app].
  eapply GS_step; [|exact Ge]. specialize (IH q). rewrite <- app_assoc in IH. exact IH.
Qed.
Lemma ans_inv s qss s' ps N V : base s -> knows_of s N V -> (forall qs q, In qs qss -> In q qs -> on s h q) -> no_clash qss ->
  gsteps norm (s, map (run_request fmt norm [] []) qss) (s', ps) ->
  exists Lf, inv_ans (world_of s) (fun j p => users qss j p \/ idle qss j p) (changers qss) (map (fun qs => ends (abs_run fmt norm N V [] qs)) (qss ++ [[]])) s' (ps ++ [GRet []]) Lf
    /\ length ps = length qss /\ w_tr (world_of s') tr_noop N.
Proof.
  intros Bs (Kn & K1 & K2 & K3 & K4) Ho Nc St.
  assert (Ap : forall i j, i <> j -> apart (changers qss i) (fun p => users qss j p \/ idle qss j p) (changers qss j)).
  { intros i i' N' p (qs1 & q & E & Hq & C) D. destruct D as [[(qs' & q' & E' & Hq' & D)|(_ & D)]|(qs' & q' & E' & Hq' & D)].
    - apply (Nc i i' qs1 qs' q q' N' E E' Hq Hq'). exists p. left. auto.
    - apply (D i). exists qs1, q. auto.
    - apply (Nc i i' qs1 qs' q q' N' E E' Hq Hq'). exists p. left. auto. }
  pose proof (gsteps_more _ _ St (GRet [])) as St'. cbn [fst snd] in St'.
  assert (Ln : length ps = length qss).
  { assert (Gl : forall c c' : state * list (gprog (list ans)), gsteps norm c c' -> length (snd c') = length (snd c)).
    { induction 1 as [c|c t a p b t' p' St1 IH Ge]; [reflexivity|]. cbn [fst snd] in *. rewrite <- IH, !app_length. reflexivity. }
    specialize (Gl _ _ St). cbn [snd] in Gl. rewrite map_length in Gl. exact Gl. }
  destruct (ans_steps (world_of s) (fun j p => users qss j p \/ idle qss j p) (changers qss) (map (fun qs => ends (abs_run fmt norm N V [] qs)) (qss ++ [[]])) _ _ Ap St') as [Lf I].
  - exists (fun _ => {| lv := V; lc := fun _ => False; le := []; lo := [] |}). cbn [fst snd]. split; [apply wsub_refl|]. split; [exact Bs|]. split; [|split].
    + intros i m [].
    + intros i i' m _ [].
    + intros i p E. change [GRet []] with (map (run_request fmt norm [] []) [[]]) in E. rewrite <- map_app, nth_error_map in E.
      destruct (nth_error (qss ++ [[]]) i) as [qs1|] eqn:Ei; [|discriminate]. injection E as <-.
      exists (ends (abs_run fmt norm N V [] qs1)). split; [rewrite nth_error_map, Ei; reflexivity|]. split.
      * split; cbn [lv lc le lo]; auto; contradiction.
      * apply (y_request fmt norm h g0 _ _ N s (eq_sym (b_global s Bs))); [|exact Kn].
        apply Forall_forall. intros q Hq. destruct (Nat.lt_ge_cases i (length qss)) as [L|L].
        -- rewrite nth_error_app1 in Ei by exact L. split; [apply (Ho qs1 q); [eapply nth_error_In; eassumption|exact Hq]|].
           split; intros p Hp; [left|]; exists qs1, q; auto.
        -- rewrite nth_error_app2 in Ei by exact L. destruct (i - length qss) as [|[|?]]; try discriminate. injection Ei as <-. contradiction.
  - exists Lf. cbn [fst snd] in I. split; [exact I|]. split; [exact Ln|].
    destruct I as ((_ & Ws) & _). apply Ws, Kn.
Qed.
Lemma ans_gen s qss s' ps N V : base s -> knows_of s N V -> (forall qs q, In qs qss -> In q qs -> on s h q) -> no_clash qss ->
  gsteps norm (s, map (run_request fmt norm [] []) qss) (s', ps) ->
  forall j qs rs, nth_error qss j = Some qs -> nth_error ps j = Some (GRet rs) -> rs = fst (abs_run fmt norm N V [] qs).
Proof.
  intros Bs Kn Ho Nc St j qs rs Eq Er. destruct (ans_inv s qss s' ps N V Bs Kn Ho Nc St) as (Lf & (_ & _ & _ & _ & I) & Ln & _).
  assert (L : j < length qss) by (apply nth_error_Some; congruence).
  destruct (I j (GRet rs)) as (r & E & _ & Y); [rewrite nth_error_app1 by lia; exact Er|].
  rewrite nth_error_map, nth_error_app1, Eq in E by exact L. injection E as <-. unfold yl in Y. cbn [HandleAnswerFacts.yields] in Y. unfold ends in Y. rewrite Y. reflexivity.
Qed.
(** when all have finished, each part is as the goroutine that cared for it leaves it *)
Definition finished (ps : list (@gprog A (list ans))) : Prop := forall j p, nth_error ps j = Some p -> exists rs, p = GRet rs.
Definition left_by (qss : list (list (@rcall A))) N V (j : nat) : view := snd (abs_run fmt norm N V [] (nth j (qss ++ [[]]) [])).
Lemma ans_end s qss s' ps N V : base s -> knows_of s N V -> (forall qs q, In qs qss -> In q qs -> on s h q) -> no_clash qss ->
  gsteps norm (s, map (run_request fmt norm [] []) qss) (s', ps) -> finished ps ->
  base s' /\ w_tr (world_of s') tr_noop N
  /\ forall j, j <= length qss -> exists L, lv L = left_by qss N V j /\ agree (fun p => users qss j p \/ idle qss j p) (changers qss j) s' L.
Proof.
  intros Bs Kn Ho Nc St Fi. destruct (ans_inv s qss s' ps N V Bs Kn Ho Nc St) as (Lf & (_ & Bs' & _ & _ & I) & Ln & Kn'). split; [exact Bs'|]. split; [exact Kn'|].
  intros j Lj. assert (X : exists rs, nth_error (ps ++ [GRet []]) j = Some (GRet rs)).
  { destruct (Nat.eq_dec j (length qss)) as [->|N'].
    - exists []. rewrite <- Ln. apply nth_at.
    - rewrite nth_error_app1 by lia. destruct (nth_error ps j) as [p|] eqn:E; [|apply nth_error_None in E; lia]. destruct (Fi j p E) as [rs ->]. exists rs. reflexivity. }
  destruct X as [rs Er]. destruct (I j _ Er) as (r & E & Ag & Y). rewrite nth_error_map in E.
  destruct (nth_error (qss ++ [[]]) j) as [qs|] eqn:Eq; [|discriminate]. injection E as <-. unfold yl in Y. cbn [HandleAnswerFacts.yields] in Y. unfold ends in Y.
  exists (Lf j). split; [|exact Ag]. unfold left_by. rewrite (nth_error_nth _ _ _ Eq), Y. reflexivity.
Qed.
Lemma cared (dec : forall (q : @rcall A) p, changes q p \/ ~ changes q p) qss p : exists j, j <= length qss /\ ((users qss j p \/ idle qss j p) \/ changers qss j p).
Proof.
  assert (D : (exists j, j < length qss /\ changers qss j p) \/ forall j, ~ changers qss j p).
  { induction qss as [|qs qss IH]; [right; intros j (qs & q & E & _); destruct j; discriminate|].
    assert (D1 : (exists q, In q qs /\ changes q p) \/ forall q, In q qs -> ~ changes q p).
    { induction qs as [|q qs IHq]; [right; contradiction|]. destruct (dec q p) as [C|C]; [left; exists q; cbn; auto|].
      destruct IHq as [(q' & H & H')|H]; [left; exists q'; cbn; auto|]. right. intros q' [<-|H']; auto. }
    destruct D1 as [(q & H & H')|H].
    - left. exists 0. cbn [length]. split; [lia|]. exists qs, q. auto.
    - destruct IH as [(j & L & (qs' & q & E & Hq & C))|IH].
      + left. exists (S j). cbn [length]. split; [lia|]. exists qs', q. auto.
      + right. intros [|j] (qs' & q & E & Hq & C); [injection E as <-; exact (H q Hq C)|]. apply (IH j). exists qs', q. auto. }
  destruct D as [(j & L & C)|D]; [exists j; split; [lia|auto]|]. exists (length qss). split; [lia|]. left. right. split; [reflexivity|exact D].
Qed.
(** so any two orders leave the handle showing the same *)
Lemma ans_same (dec : forall (q : @rcall A) p, changes q p \/ ~ changes q p) s qss s1 ps1 s2 ps2 N V : base s -> knows_of s N V ->
  (forall qs q, In qs qss -> In q qs -> on s h q) -> no_clash qss ->
  gsteps norm (s, map (run_request fmt norm [] []) qss) (s1, ps1) -> finished ps1 ->
  gsteps norm (s, map (run_request fmt norm [] []) qss) (s2, ps2) -> finished ps2 ->
  base s1 /\ base s2 /\ exists V', knows_of s1 N V' /\ knows_of s2 N V'.
Proof.
  intros Bs Kn Ho Nc St1 F1 St2 F2. destruct (ans_end s qss s1 ps1 N V Bs Kn Ho Nc St1 F1) as (B1 & N1 & I1). destruct (ans_end s qss s2 ps2 N V Bs Kn Ho Nc St2 F2) as (B2 & N2 & I2).
  split; [exact B1|]. split; [exact B2|].
  destruct (cared dec qss Language) as (jl & Ll & Cl). destruct (cared dec qss Current) as (jd & Ld & Cd). destruct (cared dec qss Source) as (js & Ls & Cs).
  destruct (cared dec qss Loaded) as (jm & Lm & Cm).
  exists {| v_locale := v_locale (left_by qss N V jl); v_domain := v_domain (left_by qss N V jd); v_loaded := v_loaded (left_by qss N V jm); v_source := v_source (left_by qss N V js) |}.
  split.
  - destruct (I1 jl Ll) as (L1 & E1 & G1). destruct (I1 jd Ld) as (L2 & E2 & G2). destruct (I1 js Ls) as (L3 & E3 & G3). destruct (I1 jm Lm) as (L4 & E4 & G4).
    split; [exact N1|]. cbn [v_locale v_domain v_source v_loaded]. rewrite <- E1, <- E2, <- E3, <- E4.
    split; [apply (ag_locale _ _ _ _ G1), Cl|]. split; [apply (ag_domain _ _ _ _ G2), Cd|]. split; [apply (ag_source _ _ _ _ G3), Cs|apply (ag_loaded _ _ _ _ G4), Cm].
  - destruct (I2 jl Ll) as (L1 & E1 & G1). destruct (I2 jd Ld) as (L2 & E2 & G2). destruct (I2 js Ls) as (L3 & E3 & G3). destruct (I2 jm Lm) as (L4 & E4 & G4).
    split; [exact N2|]. cbn [v_locale v_domain v_source v_loaded]. rewrite <- E1, <- E2, <- E3, <- E4.
    split; [apply (ag_locale _ _ _ _ G1), Cl|]. split; [apply (ag_domain _ _ _ _ G2), Cd|]. split; [apply (ag_source _ _ _ _ G3), Cs|apply (ag_loaded _ _ _ _ G4), Cm].
Qed.
End Facts.
