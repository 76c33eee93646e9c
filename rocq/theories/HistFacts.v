(** Proofs for C109: the handles of a program and the calls it has made. *)
From Coq Require Import Lia.
From Verif Require Import GoStr GoStrFacts GoMap GoMapFacts FileModel PoModel MoModel TransModel TransSpec TransFacts TransFrameFacts TransViewFacts TransLoadFacts HistSpec.

Section Hist.
Context {A : Type}.
Variable fmt : bytes -> list A -> bytes.
Variable norm : bytes -> bytes.
Notation state := (@state A).
Implicit Types s : state.
Notation speaks_by := (speaks_by norm fmt).
Notation makes := (@makes A norm).
Notation reach_clean := (reach_clean fmt norm).
Notation do_op := (do_op fmt norm).

(** ** A translation holds what its files gave *)
Definition tells s (t : nat) (b : list event * list event) : Prop :=
  t < length (s_trs s) /\
  forall l,
    (exists f a, wins norm l (catalogs (B ".mo") (fst b)) (catalogs (B ".po") (snd b)) f
       /\ tr_get (the_tr s t) l = Some (TFile a) /\ a < length (s_files s) /\ same_file f (the_file s a))
    \/ nobody norm l (catalogs (B ".mo") (fst b)) (catalogs (B ".po") (snd b)) /\ tr_get (the_tr s t) l = None.
Definition holds s (b : option (list event * list event)) (t : option nat) : Prop :=
  match b, t with Some b, Some t => tells s t b | None, None => True | _, _ => False end.
Record h_fits s (h : nat) (x : handle) : Prop := {
  hf_locale : h_locale s h = a_locale x;
  hf_domain : h_domain s h = a_domain x;
  hf_source : h_source s h = a_source x;
  hf_holds : forall d, holds s (a_bound x d) (h_get s h d) }.
Record fits s (p : program) : Prop := {
  ft_len : length (s_ts s) = length (a_handles p);
  ft_glob : s_global s = a_global p;
  ft_at : forall h x, nth_error (a_handles p) h = Some x -> h_fits s h x }.

Lemma tells_keeps s s' t b : keeps s s' -> tells s t b -> tells s' t b.
Proof.
  intros [K1 K2 K3 K4] [T H]. split; [lia|]. intros l. rewrite K1 by exact T. destruct (H l) as [(f & a & W & G & La & S)|N]; [left|right; exact N].
  exists f, a. repeat split; try assumption; try lia; eapply same_file_trans; eauto; apply K3, La.
Qed.
Lemma holds_keeps s s' b t : keeps s s' -> holds s b t -> holds s' b t.
Proof. intros K. destruct b, t; cbn [holds]; auto. apply tells_keeps, K. Qed.
Lemma fits_same s h s' h' x : same_handle s h s' h' -> keeps s s' -> h_fits s h x -> h_fits s' h' x.
Proof.
  intros [L D S M _ _] K []. split; try congruence. intros d. unfold h_get. rewrite <- M. eapply holds_keeps; [exact K|]. apply hf_holds0.
Qed.
Lemma clean_wf s : reach_clean s -> wf_ true s.
Proof. intros R. eapply reach_wf, reach_clean_reach, R. Qed.
Lemma not_direct (o : @op A) : ~ direct o -> ~ spoils_noop o.
Proof. intros D S. apply D. destruct o; cbn in *; auto. Qed.
Lemma clean_step s o : reach_clean s -> known s o -> ~ direct o -> reach_clean (do_op s o).
Proof. intros R K D. apply RC_step; auto using not_direct. Qed.

(** ** What a handle says that fits *)
Lemma fits_says s h x d l : reach_clean s -> h < length (s_ts s) -> h_fits s h x ->
  speaks_by (retarget s h d l) h l (a_source x) (a_bound x d).
Proof.
  intros R H []. specialize (hf_holds0 d).
  assert (G : h_get (retarget s h d l) h (h_domain (retarget s h d l) h) = h_get s h d).
  { rewrite retarget_domain by exact H. unfold h_get, h_domains. rewrite retarget_ts by exact H. reflexivity. }
  assert (Sr : h_source (retarget s h d l) h = a_source x).
  { rewrite <- hf_source0. unfold h_source. rewrite retarget_ts by exact H. reflexivity. }
  assert (L : h_locale (retarget s h d l) h = l) by (apply retarget_locale, H).
  unfold HistSpec.speaks_by, used_locale. rewrite Sr, L. rewrite G.
  destruct (a_bound x d) as [(wm, wp)|], (h_get s h d) as [t|]; cbn [holds] in hf_holds0; try contradiction.
  - destruct hf_holds0 as [_ T]. change (the_tr (retarget s h d l)) with (the_tr s).
    destruct (T l) as [(f & a & W & E & La & Sm)|(N & E)]; rewrite E; [left|right].
    + exists f. split; [exact W|]. split; [|reflexivity].
      assert (X : the_tor (retarget s h d l) h = TFile a) by (apply (catalog_used _ _ _ _ G); rewrite L; exact E).
      pose proof (tor_answers fmt (retarget s h d l) h) as Q. rewrite X in Q. destruct Q as [Q1 Q2].
      split; intros; [rewrite Q1; symmetry; apply same_x; exact Sm|rewrite Q2; symmetry; apply same_xn; exact Sm].
    + split; [exact N|]. split; [|reflexivity]. apply (no_catalog fmt _ _ _ G). rewrite L. exact E.
  - split; [|reflexivity]. apply no_domain; [exact (clean_noop fmt norm s R)|exact G].
Qed.

(** ** One call *)
Lemma nth_lt {X} (l : list X) h x : nth_error l h = Some x -> h < length l.
Proof. intros E. apply nth_error_Some. congruence. Qed.
Lemma nth_alter f : forall l h h' y, nth_error (alter h f l) h' = Some y ->
  (h' = h /\ exists x, nth_error l h = Some x /\ y = f x) \/ (h' <> h /\ nth_error l h' = Some y).
Proof.
  induction l as [|x l IH]; intros h h' y; [destruct h, h'; discriminate|].
  destruct h as [|h], h' as [|h']; cbn [alter nth_error]; intros E.
  - injection E as <-. left. eauto.
  - right. split; [discriminate|exact E].
  - right. split; [discriminate|exact E].
  - apply IH in E as [(-> & E)|(N & E)]; [left; auto|right; split; [congruence|exact E]].
Qed.
Lemma alter_length f : forall l h, length (alter h f l) = length l.
Proof. induction l as [|x l IH]; intros [|h]; cbn [alter length]; try rewrite IH; reflexivity. Qed.
Lemma fits_old s o h x : reach_clean s -> known s o -> ~ direct o -> on_handle o <> Some h -> h < length (s_ts s) ->
  h_fits s h x -> h_fits (do_op s o) h x.
Proof.
  intros R K D O H. destruct (elsewhere_frame fmt norm s o h (clean_wf s R) K (conj D O) H) as [S Kp]. apply fits_same; assumption.
Qed.
(** calls on one handle *)
Lemma fits_on s o h f p : reach_clean s -> known s o -> ~ direct o -> on_handle o = Some h -> fits s p ->
  length (s_ts (do_op s o)) = length (s_ts s) -> s_global (do_op s o) = s_global s ->
  (forall x, h < length (s_ts s) -> h_fits s h x -> h_fits (do_op s o) h (f x)) ->
  fits (do_op s o) (on h f p).
Proof.
  intros R K D O [L G F] L' G' H. split; unfold on; cbn [a_handles a_global].
  - rewrite alter_length. congruence.
  - congruence.
  - intros h' y E. apply nth_alter in E as [(-> & x & E & ->)|(N & E)].
    + apply H; [rewrite L; eapply nth_lt, E|apply F, E].
    + apply fits_old; try assumption; [congruence|rewrite L; eapply nth_lt, E|apply F, E].
Qed.
(** calls that return a new handle *)
Lemma fits_new s o y p : reach_clean s -> known s o -> ~ direct o -> on_handle o = None -> fits s p ->
  length (s_ts (do_op s o)) = S (length (s_ts s)) -> s_global (do_op s o) = s_global s ->
  h_fits (do_op s o) (length (s_ts s)) y ->
  fits (do_op s o) {| a_handles := a_handles p ++ [y]; a_global := a_global p |}.
Proof.
  intros R K D O [L G F] L' G' H. split; cbn [a_handles a_global].
  - rewrite app_length. cbn [length]. lia.
  - congruence.
  - intros h x E. destruct (Nat.lt_ge_cases h (length (a_handles p))) as [Lt|Ge].
    + rewrite nth_error_app1 in E by exact Lt. apply fits_old; try assumption; [congruence|lia|apply F, E].
    + rewrite nth_error_app2 in E by exact Ge. destruct (h - length (a_handles p)) as [|k] eqn:Q; [|destruct k; discriminate].
      injection E as <-. replace h with (length (s_ts s)) by lia. exact H.
Qed.
Lemma fits_copy s o h f p : reach_clean s -> known s o -> ~ direct o -> on_handle o = None -> fits s p -> h < length (s_ts s) ->
  length (s_ts (do_op s o)) = S (length (s_ts s)) -> s_global (do_op s o) = s_global s ->
  (forall x, h_fits s h x -> h_fits (do_op s o) (length (s_ts s)) (f x)) ->
  fits (do_op s o) (copy h f p).
Proof.
  intros R K D O F H L' G' N. unfold copy. destruct (nth_error (a_handles p) h) as [x|] eqn:E.
  - apply fits_new; try assumption. apply N, (ft_at s p F), E.
  - apply nth_error_None in E. destruct F. lia.
Qed.
(** calls that change no handle *)
Lemma fits_idle s o p g : reach_clean s -> known s o -> ~ direct o -> on_handle o = None -> fits s p ->
  length (s_ts (do_op s o)) = length (s_ts s) -> s_global (do_op s o) = g ->
  fits (do_op s o) {| a_handles := a_handles p; a_global := g |}.
Proof.
  intros R K D O [L G F] L' G'. split; cbn [a_handles a_global]; [congruence|exact G'|].
  intros h x E. apply fits_old; try assumption; [congruence|rewrite L; eapply nth_lt, E|apply F, E].
Qed.
Lemma retarget_fits s h d l x : h < length (s_ts s) -> h_fits s h x ->
  h_fits (retarget s h d l) h {| a_locale := l; a_domain := d; a_source := a_source x; a_bound := a_bound x |}.
Proof.
  intros H []. split; cbn [a_locale a_domain a_source a_bound].
  - apply retarget_locale, H.
  - apply retarget_domain, H.
  - unfold h_source. rewrite retarget_ts by exact H. exact hf_source0.
  - intros d'. unfold h_get, h_domains. rewrite retarget_ts by exact H. apply hf_holds0.
Qed.
Lemma set_len s h r : length (s_ts (set_ts s h r)) = length (s_ts s).
Proof. unfold set_ts. cbn [s_ts]. apply upd_length. Qed.
Lemma set_fits s h d l src x y : h < length (s_ts s) -> h_fits s h x ->
  a_locale y = l -> a_domain y = d -> a_source y = src -> a_bound y = a_bound x ->
  h_fits (set_ts s h {| t_locale := l; t_domain := d; t_map := t_map (the_ts s h); t_source := src |}) h y.
Proof.
  intros H [] E1 E2 E3 E4. split; unfold h_locale, h_domain, h_source, h_get, h_domains; rewrite set_ts_at by exact H; try (symmetry; assumption).
  intros d'. rewrite E4. apply hf_holds0.
Qed.
Lemma bind_fits s h d wm wp x : reach_clean s -> h < length (s_ts s) -> h_fits s h x ->
  h_fits (bind_fs norm s h d wm wp) h (bound_to d wm wp x).
Proof.
  intros R H F. pose proof (clean_wf s R) as W. pose proof (bind_keeps norm s h d wm wp) as K. pose proof (bind_h norm s h d wm wp) as E.
  unfold bound_to. change (loads wm wp) with (existsb okb (hits (B ".mo") wm ++ hits (B ".po") wp)).
  destruct (existsb okb _) eqn:Ld.
  - assert (W' : wf_ true (bind_fs norm s h d wm wp)).
    { apply (clean_wf (do_op s (OBind h d wm wp))). apply clean_step; [exact R|exact H|intros []]. }
    destruct F. split; cbn [a_locale a_domain a_source a_bound]; try (unfold h_locale, h_domain, h_source; rewrite E; assumption).
    intros d'. unfold h_get. rewrite (bind_domains norm s h d wm wp W H) by (apply some_loaded_iff; exact Ld).
    destruct (beq d' d) eqn:Q.
    + apply beq_eq in Q. subst d'. rewrite mget_put_same. cbn [holds].
      destruct (bind_tr norm s h d wm wp Ld) as [T Fl].
      assert (Lt : length (s_trs s) < length (s_trs (snd (new_translation s d)))) by (cbn; rewrite app_length; cbn; lia).
      assert (Nn : the_tr (snd (new_translation s d)) (length (s_trs s)) = {| tr_domain := d; tr_langs := [] |}) by apply nth_new.
      split.
      { assert (G : h_get (bind_fs norm s h d wm wp) h d = Some (length (s_trs s))).
        { unfold h_get. rewrite (bind_domains norm s h d wm wp W H) by (apply some_loaded_iff; exact Ld). apply mget_put_same. }
        apply (w_trs _ W' _ _ _ G). }
      intros l. cbn [fst snd].
      destruct (with_files_langs norm (snd (new_translation s d)) (length (s_trs s)) (catalogs (B ".mo") wm ++ catalogs (B ".po") wp) l Lt)
        as [(f & a & Wn & G & _ & Sm)|(N & G)].
      * left. exists f, a. split; [apply wins_app, Wn|]. rewrite <- T in G. rewrite <- Fl in Sm. split; [exact G|]. split; [|exact Sm].
        exact (w_tors _ W' _ _ _ G).
      * right. split; [exact N|]. rewrite <- T in G. rewrite Nn in G. exact G.
    + rewrite mget_put_other by (intros ->; rewrite beq_refl in Q; discriminate). eapply holds_keeps; [exact K|]. apply hf_holds0.
  - eapply fits_same; [|exact K|exact F]. rewrite bind_fs_spec. cbn zeta. rewrite Ld. split; auto.
Qed.
Lemma remove_len s h d : length (s_ts (snd (remove_domain s h d))) = length (s_ts s) /\ s_global (snd (remove_domain s h d)) = s_global s.
Proof.
  unfold remove_domain. destruct d as [|c d]; [auto|]. destruct (negb _); [auto|]. cbn zeta. cbn [snd].
  destruct (beq _ _); [|auto]. unfold set_domain. rewrite set_len. auto.
Qed.
Lemma remove_fits s h d x : reach_clean s -> h < length (s_ts s) -> h_fits s h x ->
  h_fits (snd (remove_domain s h d)) h (without d x).
Proof.
  intros R H F. pose proof (clean_wf s R) as W. destruct (fst (remove_domain s h d)) eqn:Q.
  - destruct (remove_spec s h d W H Q) as (G1 & G2 & G3 & G4 & G5 & _ & K).
    apply (remove_true norm) in Q as [Nd Hd]. apply has_domain_get in Hd. destruct F.
    unfold without. destruct d as [|c d]; [contradiction|]. remember (c :: d) as dd. clear Heqdd.
    pose proof (hf_holds0 dd) as Hh. destruct (h_get s h dd) as [t|]; [|contradiction].
    destruct (a_bound x dd) as [b|]; [|contradiction].
    split; cbn [a_locale a_domain a_source a_bound]; try congruence.
    + rewrite G5, hf_domain0. reflexivity.
    + intros d'. destruct (beq d' dd) eqn:E.
      * apply beq_eq in E. subst d'. rewrite G1. exact I.
      * rewrite G2 by (intros ->; rewrite beq_refl in E; discriminate). eapply holds_keeps; [exact K|]. apply hf_holds0.
  - rewrite (remove_false s h d Q). replace (without d x) with x; [exact F|]. unfold without.
    destruct d as [|c d]; [reflexivity|]. remember (c :: d) as dd.
    destruct (a_bound x dd) as [b|] eqn:E; [|reflexivity]. exfalso. destruct F. specialize (hf_holds0 dd). rewrite E in hf_holds0.
    assert (T : fst (remove_domain s h dd) = true); [|congruence].
    apply (remove_true norm). split; [subst; discriminate|]. apply has_domain_get. destruct (h_get s h dd); [discriminate|contradiction].
Qed.
Lemma clear_fits s h x : h < length (s_ts s) -> h_fits s h x -> h_fits (clear_domains s h) h (cleared x).
Proof.
  intros H []. destruct (clear_spec s h H) as (G1 & G2 & G3 & G4). split; cbn [cleared a_locale a_domain a_source a_bound]; try congruence.
  - exact G2.
  - intros d. rewrite G1. exact I.
Qed.
Lemma xn_len s h c i i2 n args : length (s_ts (snd (h_xn64 fmt s h c i i2 n args))) = length (s_ts s)
  /\ s_global (snd (h_xn64 fmt s h c i i2 n args)) = s_global s.
Proof. unfold h_xn64, tor_xn. destruct (the_tor s h); cbn [snd]; auto. destruct (f_xn64 _ _ _ _ _ _ _); auto. Qed.

Lemma new_fits s sys : h_fits (snd (new_translations s sys)) (length (s_ts s)) (new_handle sys).
Proof.
  set (r := {| t_locale := sys; t_domain := default_domain; t_map := length (s_maps s); t_source := default_source |}).
  change (new_translations s sys) with (length (s_ts s), fresh s r []). cbn [snd].
  assert (T : the_ts (fresh s r []) (length (s_ts s)) = r) by apply nth_new.
  split; unfold h_locale, h_domain, h_source, h_get, h_domains; rewrite T; try reflexivity.
  intros d. cbn [t_map r]. unfold the_map, fresh. cbn [s_maps]. rewrite nth_new. exact I.
Qed.
(** D, L and Global *)
Lemma D_fits s h d x : reach_clean s -> h < length (s_ts s) -> h_fits s h x ->
  h_fits (snd (h_D s h d)) (length (s_ts s)) (in_domain d x).
Proof.
  intros R H F. destruct (D_new fmt norm s h d (clean_wf s R) H) as [S K]. rewrite D_fst in S.
  eapply fits_same; [exact S|exact (keeps_retarget s h _ _ _ K)|]. unfold in_domain. rewrite <- (hf_locale s h x F). apply retarget_fits; assumption.
Qed.
Lemma L_fits s h l sys x : reach_clean s -> h < length (s_ts s) -> h_fits s h x ->
  h_fits (snd (h_L norm s h l sys)) (length (s_ts s)) (in_language norm l sys x).
Proof.
  intros R H F. destruct (L_new fmt norm s h l sys (clean_wf s R) H) as [S K]. rewrite L_fst in S.
  eapply fits_same; [exact S|exact (keeps_retarget s h _ _ _ K)|]. unfold in_language. rewrite <- (hf_domain s h x F). apply retarget_fits; assumption.
Qed.
Lemma clone_fits s h x : reach_clean s -> h < length (s_ts s) -> h_fits s h x -> h_fits (snd (clone s h)) (length (s_ts s)) x.
Proof.
  intros R H F. destruct (clone_frame s h h (clean_wf s R) H) as [_ K]. eapply fits_same; [apply clone_new; [apply clean_wf, R|exact H]|exact K|exact F].
Qed.
Lemma fits_D s h d p : reach_clean s -> h < length (s_ts s) -> fits s p -> fits (do_op s (OD h d)) (copy h (in_domain d) p).
Proof.
  intros R H F. apply fits_copy; try assumption; try reflexivity; try exact (fun x => x); [exact (D_len fmt norm s h d)|]. intros x. apply D_fits; assumption.
Qed.
Lemma fits_L s h l sys p : reach_clean s -> h < length (s_ts s) -> fits s p -> fits (do_op s (OL h l sys)) (copy h (in_language norm l sys) p).
Proof.
  intros R H F. apply fits_copy; try assumption; try reflexivity; try exact (fun x => x); [exact (L_len fmt norm s h l sys)|]. intros x. apply L_fits; assumption.
Qed.
Lemma fits_G s p : reach_clean s -> fits s p -> fits (do_op s OGlobal) (copy (a_global p) (fun x => x) p).
Proof.
  intros R F. pose proof (w_global s (clean_wf s R)) as H. rewrite <- (ft_glob s p F).
  apply fits_copy; try assumption; try reflexivity; try exact I; try exact (fun x => x); [apply clone_len|]. intros x. apply clone_fits; assumption.
Qed.
Lemma copy_len s h f p : fits s p -> h < length (s_ts s) -> length (a_handles (copy h f p)) = S (length (a_handles p)).
Proof.
  intros [L _ _] H. unfold copy. destruct (nth_error _ h) eqn:E; [cbn; rewrite app_length; cbn; lia|]. apply nth_error_None in E. lia.
Qed.
Lemma fits_with s c sys p : reach_clean s -> fits s p -> fits (do_op s (OWith c sys)) (makes p (OWith c sys)).
Proof.
  intros R F. pose proof (fits_G s p R F) as F1. pose proof (clean_step s OGlobal R I (fun x => x)) as R1.
  assert (E1 : g_clone s = (length (s_ts s), do_op s OGlobal)) by reflexivity.
  assert (L1 : length (s_ts (do_op s OGlobal)) = S (length (s_ts s))) by apply clone_len.
  cbn [TransModel.do_op HistSpec.makes]. unfold with_context. rewrite E1.
  set (p1 := copy (a_global p) _ p) in *. set (s1 := do_op s OGlobal) in *.
  assert (P1 : length (a_handles p1) - 1 = length (s_ts s)) by (rewrite <- (ft_len s1 p1 F1); lia).
  assert (Q : exists h2 s2 p2, match get_ctx_locale c with Some l => h_L norm s1 (length (s_ts s)) l sys | None => (length (s_ts s), s1) end = (h2, s2)
     /\ match get_ctx_locale c with Some l => copy (length (a_handles p1) - 1) (in_language norm l sys) p1 | None => p1 end = p2
     /\ reach_clean s2 /\ fits s2 p2 /\ length (s_ts s2) = S h2).
  { destruct (get_ctx_locale c) as [l|].
    - exists (length (s_ts s1)), (do_op s1 (OL (length (s_ts s)) l sys)). eexists. split; [reflexivity|]. split; [reflexivity|].
      assert (H : length (s_ts s) < length (s_ts s1)) by lia.
      split; [apply clean_step; [exact R1|exact H|intros []]|]. rewrite P1. split; [apply fits_L; assumption|]. exact (L_len fmt norm s1 (length (s_ts s)) l sys).
    - exists (length (s_ts s)), s1, p1. split; [reflexivity|]. split; [reflexivity|]. split; [exact R1|]. split; [exact F1|exact L1]. }
  destruct Q as (h2 & s2 & p2 & -> & -> & R2 & F2 & L2).
  assert (P2 : length (a_handles p2) - 1 = h2) by (rewrite <- (ft_len s2 p2 F2); lia).
  destruct (get_ctx_domain c) as [dm|]; [|exact F2]. rewrite P2. apply (fits_D s2 h2 dm p2 R2); [lia|exact F2].
Qed.

Lemma fits_step s o p : reach_clean s -> known s o -> ~ direct o -> fits s p -> fits (do_op s o) (makes p o).
Proof.
  intros R K D F. destruct o; try (exfalso; exact (D I)); cbn [HistSpec.makes].
  - apply fits_new; auto; [cbn; rewrite app_length; cbn; lia|]. apply new_fits.
  - apply fits_G; assumption.
  - apply (fits_idle s (OSetGlobal h)); auto.
  - apply fits_D; assumption.
  - apply fits_L; assumption.
  - apply fits_with; assumption.
  - apply fits_on; auto; [apply set_len|]. intros x H Fx. apply set_fits with (x := x); auto; try (symmetry; apply Fx).
  - apply fits_on; auto; [apply set_len|]. intros x H Fx. apply set_fits with (x := x); auto; try (symmetry; apply Fx).
  - apply fits_on; auto; [apply set_len|]. intros x H Fx. apply set_fits with (x := x); auto; try (symmetry; apply Fx).
  - apply fits_on; auto; [cbn [TransModel.do_op]; rewrite bind_ts; reflexivity|cbn [TransModel.do_op]; rewrite bind_fs_spec; cbn zeta; destruct (existsb okb _); reflexivity|].
    intros x H Fx. apply bind_fits; assumption.
  - apply fits_on; auto; [apply remove_len..|]. intros x H Fx. apply remove_fits; assumption.
  - apply fits_on; auto; [apply upd_length|]. intros x H Fx. apply clear_fits; assumption.
  - replace p with {| a_handles := a_handles p; a_global := a_global p |} by (destruct p; reflexivity).
    apply fits_idle; auto. apply F.
  - replace p with {| a_handles := a_handles p; a_global := a_global p |} by (destruct p; reflexivity).
    apply fits_idle; auto; [apply xn_len|]. cbn [TransModel.do_op]. destruct (xn_len s h c i i2 n args) as [_ ->]. apply F.
  - replace p with {| a_handles := a_handles p; a_global := a_global p |} by (destruct p; reflexivity).
    apply fits_idle; auto. apply F.
  - replace p with {| a_handles := a_handles p; a_global := a_global p |} by (destruct p; reflexivity).
    apply fits_idle; auto. apply F.
Qed.
Lemma fits_init sys : fits (@init A sys) {| a_handles := [new_handle sys]; a_global := 0 |}.
Proof.
  split; [reflexivity..|]. intros [|[|h]] x E; [|discriminate..]. injection E as <-. split; [reflexivity..|intros d; exact I].
Qed.
Lemma ran_clean sys os s : ran norm fmt sys os s -> reach_clean s.
Proof. intros R. induction R; [apply RC_init|apply clean_step; assumption]. Qed.
Lemma ran_fits sys os s : ran norm fmt sys os s -> fits s (made norm sys os).
Proof.
  intros R. induction R as [|os s o R IH K D]; [apply fits_init|]. unfold made. rewrite fold_left_app. cbn [fold_left].
  apply fits_step; try assumption. eapply ran_clean, R.
Qed.
End Hist.
