(** Two calls that touch the same part of a handle can be brought to the point
    where both are about to touch it. *)
From Coq Require Import Lia Arith List.
From Verif Require Import GoStr GoStrFacts GoMap GoMapFacts FileModel TransModel TransSpec TransFacts ConcModel HandleConcModel HandleConcSpec HandleRaceSpec.
Import ListNotations.
Local Open Scope nat_scope.
Section Facts.
Context {A : Type}.
Variable fmt : bytes -> list A -> bytes.
Variable norm : bytes -> bytes.
Notation state := (@state A).
Implicit Types s : state.
Notation prog := (@gprog A (list ans)).
(** one goroutine on its own *)
Inductive solo : state -> prog -> state -> prog -> Prop :=
| Solo_here s p : solo s p s p
| Solo_step s p s1 p1 s' p' : gstep norm s p = Some (s1, p1) -> solo s1 p1 s' p' -> solo s p s' p'.
Definition gets s (p : prog) (x : place) (wr : bool) (Q : state -> Prop) : Prop :=
  exists s' p', solo s p s' p' /\ Q s' /\ (if wr then writes_at p' x else uses_at p' x).
Lemma gets_step s p s1 p1 x wr Q : gstep norm s p = Some (s1, p1) -> gets s1 p1 x wr Q -> gets s p x wr Q.
Proof. intros E (s' & p' & H1 & H2). exists s', p'. split; [eapply Solo_step; eassumption|exact H2]. Qed.
Lemma gets_rd s y k x wr Q : gets s (k (get s y)) x wr Q -> gets s (Rd y k) x wr Q.
Proof. apply gets_step. reflexivity. Qed.
Lemma gets_wr s y f k x wr Q : gets (put s y (f (get s y))) k x wr Q -> gets s (Wr y f k) x wr Q.
Proof. apply gets_step. reflexivity. Qed.
Lemma gets_map s g k x wr Q : gets (snd (new_map s g)) (k (length (s_maps s))) x wr Q -> gets s (NewMap g k) x wr Q.
Proof. apply gets_step. reflexivity. Qed.
Lemma here_rd s x k (Q : state -> Prop) : Q s -> gets s (Rd x k) x false Q.
Proof. intros H. exists s, (Rd x k). repeat split; [constructor|exact H]. Qed.
Lemma here_wr s x f k wr (Q : state -> Prop) : Q s -> gets s (Wr x f k) x wr Q.
Proof. intros H. exists s, (Wr x f k). split; [constructor|]. split; [exact H|]. destruct wr; reflexivity. Qed.
Lemma gets_load s d wm wp k x wr (Q : state -> Prop) : loads wm wp ->
  (forall s1 t, s_ts s1 = s_ts s -> s_global s1 = s_global s -> gets s1 (k (Some t)) x wr Q) -> gets s (Load d wm wp k) x wr Q.
Proof.
  intros L H.
  assert (Lt : length (s_trs s) < length (s_trs (snd (new_translation s d)))) by (unfold new_translation, new_tr; cbn [snd s_trs]; rewrite app_length; cbn [length]; lia).
  eapply gets_step.
  - cbn [gstep]. change (new_translation s d) with (length (s_trs s), snd (new_translation s d)). cbv beta iota.
    rewrite load_fs_spec by exact Lt. rewrite (proj2 (some_loaded_iff wm wp) L). reflexivity.
  - apply H; reflexivity.
Qed.
Lemma gets_weak s p x wr (Q Q' : state -> Prop) : (forall s', Q s' -> Q' s') -> gets s p x wr Q -> gets s p x wr Q'.
Proof. intros H (s' & p' & H1 & H2 & H3). exists s', p'. auto. Qed.
(** ** Two goroutines *)
Definition races s (P Q : prog) : Prop := exists s' ps, gsteps norm (s, [P; Q]) (s', ps) /\ handle_race ps.
Lemma solo_left c s p s' p' q : solo s p s' p' -> gsteps norm c (s, [p; q]) -> gsteps norm c (s', [p'; q]).
Proof.
  induction 1 as [s p|s p s1 p1 s' p' E So IH]; intros H; [exact H|]. apply IH. exact (GS_step norm c s [] p [q] s1 p1 H E).
Qed.
Lemma solo_right c s p s' p' q : solo s p s' p' -> gsteps norm c (s, [q; p]) -> gsteps norm c (s', [q; p']).
Proof.
  induction 1 as [s p|s p s1 p1 s' p' E So IH]; intros H; [exact H|]. apply IH. exact (GS_step norm c s [q] p [] s1 p1 H E).
Qed.
Lemma writes_uses (p : prog) x : writes_at p x -> uses_at p x.
Proof. destruct p; cbn; auto; contradiction. Qed.
Lemma races_uw s P Q x : gets s P x false (fun s1 => gets s1 Q x true (fun _ => True)) -> races s P Q /\ races s Q P.
Proof.
  intros (s1 & P1 & H1 & (s2 & Q2 & H2 & _ & W) & U). split.
  - exists s2, [P1; Q2]. split; [eapply solo_right; [exact H2|]; eapply solo_left; [exact H1|]; constructor|].
    exists 1, 0, Q2, P1, x. repeat split; auto.
  - exists s2, [Q2; P1]. split; [eapply solo_left; [exact H2|]; eapply solo_right; [exact H1|]; constructor|].
    exists 0, 1, Q2, P1, x. repeat split; auto.
Qed.
Lemma races_wu s P Q x : gets s Q x true (fun s1 => gets s1 P x false (fun _ => True)) -> races s P Q /\ races s Q P.
Proof.
  intros (s1 & Q1 & H1 & (s2 & P2 & H2 & _ & U) & W). split.
  - exists s2, [P2; Q1]. split; [eapply solo_left; [exact H2|]; eapply solo_right; [exact H1|]; constructor|].
    exists 1, 0, Q1, P2, x. repeat split; auto.
  - exists s2, [Q1; P2]. split; [eapply solo_right; [exact H2|]; eapply solo_left; [exact H1|]; constructor|].
    exists 0, 1, Q1, P2, x. repeat split; auto.
Qed.
(** ** Calls *)
Variable h : nat.
Notation go q := (run_request fmt norm [] [] [q]).
Definition recv s (r : href) : Prop := match r with HGlob => s_global s = h | HShared a => a = h | HOwn _ => False end.
Lemma gets_ref s r k x wr Q : recv s r -> gets s (k h) x wr Q -> gets s (with_ref [] r k) x wr Q.
Proof.
  intros Hr H. destruct r as [|a|i]; cbn [with_ref recv] in *; [|subst a; exact H|contradiction].
  apply gets_rd. cbn [get]. rewrite Hr. exact H.
Qed.
Definition same s s' : Prop := s_ts s' = s_ts s /\ s_global s' = s_global s.
Lemma same_refl s : same s s.
Proof. split; reflexivity. Qed.
Lemma on_same s s' q : s_global s' = s_global s -> on s h q -> on s' h q.
Proof. intros E. destruct q as [| | |r|r|r|r|r|r|r|r|r|r|r|r|r|r|r|r|[]|r|r]; cbn [on]; rewrite ?E; auto. Qed.
Ltac begin := cbn [run_request run_rcall]; first
  [ apply gets_ref; [assumption|]
  | apply gets_rd; cbn [get]; match goal with E : s_global _ = h |- _ => rewrite E end
  | idtac ].
Ltac most r := destruct r; cbn [run_request run_rcall with_ref]; [apply gets_rd| |]; apply gets_rd; cbn [get];
  match goal with E : s_global _ = h |- _ => rewrite E end.
(** [uses_in] gives the access *)
Lemma use_language s q : on s h q -> uses_in s h q Language -> gets s (go q) (PLocale h) false (eq s).
Proof.
  intros Ho [Hu Hx]. destruct q as [d| |c d|r dom|r l d|r dom|r l d|r l|r dom wm wp|r dom|r|r dom|r|r|r|r|r|r|r|ck|r c i args|r c i i2 n args]; cbn [on uses] in *;
    try contradiction; try discriminate; try (destruct Hu; discriminate); try (exfalso; clear - Hu; intuition discriminate; fail); try (exfalso; apply Hu; reflexivity).
  - begin. unfold clone_c. apply here_rd. reflexivity.
  - begin. unfold clone_c. apply here_rd. reflexivity.
  - begin. unfold D_c, clone_c. apply here_rd. reflexivity.
  - begin. unfold L_c, clone_c. apply here_rd. reflexivity.
  - begin. apply here_rd. reflexivity.
  - begin. unfold used_c, get_c. do 3 apply gets_rd. cbn [get]. destruct Hx as [t Hx].
    change (mget (t_domain (the_ts s h)) (the_map s (t_map (the_ts s h)))) with (h_get s h (h_domain s h)). rewrite Hx. apply here_rd. reflexivity.
  - most r; unfold locales_c, get_c; do 6 apply gets_rd; cbn [get]; rewrite Ho; apply here_rd; reflexivity.
  - destruct ck; [contradiction|]. exfalso. apply Hu. reflexivity.
  - begin. unfold x_c, tor_c, get_c. do 3 apply gets_rd. apply here_rd. reflexivity.
  - begin. unfold xn_c, tor_c, get_c. do 3 apply gets_rd. apply here_rd. reflexivity.
Qed.
Lemma use_current s q : on s h q -> uses q Current -> match q with QRemove _ _ => False | _ => True end -> gets s (go q) (PDomain h) false (eq s).
Proof.
  intros Ho Hu Hx. destruct q as [d| |c d|r dom|r l d|r dom|r l d|r l|r dom wm wp|r dom|r|r dom|r|r|r|r|r|r|r|ck|r c i args|r c i i2 n args]; cbn [on uses] in *;
    try contradiction; try discriminate; try (destruct Hu; discriminate).
  - begin. unfold clone_c. apply gets_rd, here_rd. reflexivity.
  - begin. unfold clone_c. apply gets_rd, here_rd. reflexivity.
  - begin. unfold D_c, clone_c. apply gets_rd, here_rd. reflexivity.
  - begin. unfold L_c, clone_c. apply gets_rd, here_rd. reflexivity.
  - begin. apply here_rd. reflexivity.
  - begin. unfold used_c. apply here_rd. reflexivity.
  - begin. unfold locales_c. apply here_rd. reflexivity.
  - most r; unfold locales_c; apply here_rd; reflexivity.
  - destruct ck; [contradiction|]. begin. unfold locales_c. apply here_rd. reflexivity.
  - begin. unfold x_c, tor_c. apply here_rd. reflexivity.
  - begin. unfold xn_c, tor_c. apply here_rd. reflexivity.
Qed.
Lemma use_source s q : on s h q -> uses_in s h q Source -> gets s (go q) (PSource h) false (same s).
Proof.
  intros Ho [Hu Hx]. destruct q as [d| |c d|r dom|r l d|r dom|r l d|r l|r dom wm wp|r dom|r|r dom|r|r|r|r|r|r|r|ck|r c i args|r c i i2 n args]; cbn [on uses] in *;
    try contradiction; try discriminate; try (destruct Hu; discriminate); try (exfalso; clear - Hu; intuition discriminate; fail); try (exfalso; apply Hu; reflexivity).
  - begin. unfold clone_c. do 4 apply gets_rd. apply gets_map, here_rd. split; reflexivity.
  - begin. unfold clone_c. do 4 apply gets_rd. apply gets_map, here_rd. split; reflexivity.
  - begin. unfold D_c, clone_c. do 4 apply gets_rd. apply gets_map, here_rd. split; reflexivity.
  - begin. unfold L_c, clone_c. do 4 apply gets_rd. apply gets_map, here_rd. split; reflexivity.
  - begin. apply here_rd, same_refl.
  - begin. unfold used_c, get_c. do 3 apply gets_rd. cbn [get].
    change (mget (t_domain (the_ts s h)) (the_map s (t_map (the_ts s h)))) with (h_get s h (h_domain s h)).
    destruct (h_get s h (h_domain s h)) as [t|] eqn:E; [|apply here_rd, same_refl]. do 2 apply gets_rd. cbn [get].
    change (mget (t_locale (the_ts s h)) (tr_langs (the_tr s t))) with (tr_get (the_tr s t) (h_locale s h)). rewrite (Hx t eq_refl). apply here_rd, same_refl.
  - begin. unfold locales_c, get_c. do 3 apply gets_rd. apply here_rd, same_refl.
  - most r; unfold locales_c, get_c; do 3 apply gets_rd; apply here_rd, same_refl.
  - destruct ck; [contradiction|]. begin. unfold locales_c, get_c. do 3 apply gets_rd. apply here_rd, same_refl.
Qed.
(** the field that points to the loaded domains, and the map of them *)
Lemma use_loaded s q : on s h q -> uses q Loaded -> gets s (go q) (PDomains h) false (same s).
Proof.
  intros Ho Hu. destruct q as [d| |c d|r dom|r l d|r dom|r l d|r l|r dom wm wp|r dom|r|r dom|r|r|r|r|r|r|r|ck|r c i args|r c i i2 n args]; cbn [on uses] in *;
    try contradiction; try discriminate.
  - begin. unfold clone_c. do 2 apply gets_rd. apply here_rd, same_refl.
  - begin. unfold clone_c. do 2 apply gets_rd. apply here_rd, same_refl.
  - begin. unfold D_c, clone_c. do 2 apply gets_rd. apply here_rd, same_refl.
  - begin. unfold L_c, clone_c. do 2 apply gets_rd. apply here_rd, same_refl.
  - begin. unfold bind_c. apply gets_load; [apply Hu|]. intros s1 t E1 E2. apply here_rd. split; assumption.
  - begin. unfold remove_c, has_c. destruct Hu as [_ Hu]. destruct dom; [contradiction|]. apply here_rd, same_refl.
  - begin. unfold has_c. apply here_rd, same_refl.
  - begin. unfold used_c, get_c. apply gets_rd, here_rd, same_refl.
  - begin. unfold domains_c. apply here_rd, same_refl.
  - begin. unfold locales_c, get_c. apply gets_rd, here_rd, same_refl.
  - most r; unfold locales_c, get_c; apply gets_rd, here_rd, same_refl.
  - destruct ck; [contradiction|]. begin. unfold locales_c, get_c. apply gets_rd, here_rd, same_refl.
  - begin. unfold x_c, tor_c, get_c. apply gets_rd, here_rd, same_refl.
  - begin. unfold xn_c, tor_c, get_c. apply gets_rd, here_rd, same_refl.
Qed.
Lemma use_map s q : on s h q -> uses q Loaded -> gets s (go q) (PMap (t_map (the_ts s h))) false (same s).
Proof.
  intros Ho Hu. destruct q as [d| |c d|r dom|r l d|r dom|r l d|r l|r dom wm wp|r dom|r|r dom|r|r|r|r|r|r|r|ck|r c i args|r c i i2 n args]; cbn [on uses] in *;
    try contradiction; try discriminate.
  - begin. unfold clone_c. do 3 apply gets_rd. apply here_rd, same_refl.
  - begin. unfold clone_c. do 3 apply gets_rd. apply here_rd, same_refl.
  - begin. unfold D_c, clone_c. do 3 apply gets_rd. apply here_rd, same_refl.
  - begin. unfold L_c, clone_c. do 3 apply gets_rd. apply here_rd, same_refl.
  - begin. unfold bind_c. apply gets_load; [apply Hu|]. intros s1 t E1 E2. apply gets_rd. cbn [get]. unfold the_ts. rewrite E1. apply here_wr. split; assumption.
  - begin. unfold remove_c, has_c. destruct Hu as [_ Hu]. destruct dom; [contradiction|]. apply gets_rd, here_rd, same_refl.
  - begin. unfold has_c. apply gets_rd, here_rd, same_refl.
  - begin. unfold used_c, get_c. do 2 apply gets_rd. apply here_rd, same_refl.
  - begin. unfold domains_c. apply gets_rd, here_rd, same_refl.
  - begin. unfold locales_c, get_c. do 2 apply gets_rd. apply here_rd, same_refl.
  - most r; unfold locales_c, get_c; do 2 apply gets_rd; apply here_rd, same_refl.
  - destruct ck; [contradiction|]. begin. unfold locales_c, get_c. do 2 apply gets_rd. apply here_rd, same_refl.
  - begin. unfold x_c, tor_c, get_c. do 2 apply gets_rd. apply here_rd, same_refl.
  - begin. unfold xn_c, tor_c, get_c. do 2 apply gets_rd. apply here_rd, same_refl.
Qed.
(** [changes_in] gives the write *)
Lemma remove_at s r d (Q : state -> Prop) : recv s r -> d <> [] -> has_domain s h d = true ->
  (Q s -> gets s (go (QRemove r d)) (PMap (t_map (the_ts s h))) true Q)
  /\ ((forall s1, s_global s1 = s_global s -> Q s1) -> gets s (go (QRemove r d)) (PDomain h) false Q)
  /\ (h_domain s h = d -> (forall s1, s_global s1 = s_global s -> Q s1) -> gets s (go (QRemove r d)) (PDomain h) true Q).
Proof.
  intros Hr N Hd. assert (Hd' : existsb (beq d) (keys (the_map s (t_map (the_ts s h)))) = true) by exact Hd.
  cbn [run_request run_rcall]. repeat split; intros; apply gets_ref; try assumption; unfold remove_c, has_c; destruct d as [|c d]; try contradiction;
    do 2 apply gets_rd; cbn [get]; rewrite Hd'; cbn [negb]; apply gets_rd; cbn [get].
  - apply here_wr. assumption.
  - apply gets_wr. apply here_rd. auto.
  - apply gets_wr, gets_rd. cbn [get put set_map the_ts s_ts].
    match goal with E : h_domain s h = _ |- context [beq (t_domain ?t) _] => change (t_domain t) with (h_domain s h); rewrite E end.
    rewrite beq_refl. apply here_wr. auto.
Qed.
Lemma set_domain_at s r d (Q : state -> Prop) wr : recv s r -> Q s -> gets s (go (QSetDomain r d)) (PDomain h) wr Q.
Proof. intros Hr H. begin. unfold set_domain_c. apply here_wr, H. Qed.
Lemma clear_at s r (Q : state -> Prop) wr : recv s r -> (forall s1, same s s1 -> Q s1) -> gets s (go (QClear r)) (PDomains h) wr Q.
Proof. intros Hr H. begin. unfold clear_c. apply gets_map, here_wr, H. split; reflexivity. Qed.
Lemma clear_domain s r (Q : state -> Prop) : recv s r -> (forall s1, Q s1) -> gets s (go (QClear r)) (PDomain h) true Q.
Proof. intros Hr H. begin. unfold clear_c. apply gets_map, gets_wr, here_wr, H. Qed.
Lemma bind_at s r d wm wp (Q : state -> Prop) wr : recv s r -> loads wm wp -> (forall s1, same s s1 -> Q s1) -> gets s (go (QBind r d wm wp)) (PMap (t_map (the_ts s h))) wr Q.
Proof.
  intros Hr L H. begin. unfold bind_c. apply gets_load; [exact L|]. intros s1 t E1 E2. apply gets_rd. cbn [get]. unfold the_ts. rewrite E1. apply here_wr, H. split; assumption.
Qed.
(** ** Both *)
Lemma touches s q q' p : on s h q -> on s h q' -> changes_in s h q p -> changes_in s h q' p \/ uses_in s h q' p ->
  races s (go q) (go q') /\ races s (go q') (go q).
Proof.
  intros O1 O2 [C1 C1'] C2.
  assert (Sym : forall a b, races s a b /\ races s b a -> races s b a /\ races s a b) by tauto.
  destruct q as [d| |c d|r dom|r l d|r dom|r l d|r l|r dom wm wp|r dom|r|r dom|r|r|r|r|r|r|r|ck|r c i args|r c i i2 n args]; cbn [changes] in C1; try contradiction; cbn [on] in O1.
  - (* SetDomain *) subst p.
    assert (G : gets s (go q') (PDomain h) false (fun s1 => s_global s1 = s_global s)).
    { assert (U : uses q' Current -> match q' with QRemove _ _ => False | _ => True end -> gets s (go q') (PDomain h) false (fun s1 => s_global s1 = s_global s)).
      { intros U X. eapply gets_weak; [|apply use_current; assumption]. intros s1 <-. reflexivity. }
      destruct q'; try (apply U; [destruct C2 as [[C2 _]|[C2 _]]; cbn [changes uses] in *; try contradiction; try discriminate; try (exfalso; clear - C2; intuition discriminate; fail); assumption|exact I]);
        cbn [on] in O2.
      - apply set_domain_at; [exact O2|reflexivity].
      - destruct C2 as [[C2 C3]|[C2 C3]]; cbn [changes uses] in C2; apply remove_at; auto; try apply C2; try apply C3; reflexivity.
      - begin. unfold clear_c. apply gets_map, gets_wr, here_wr. reflexivity. }
    apply Sym, (races_uw _ _ _ (PDomain h)). eapply gets_weak; [|exact G]. intros s1 E. apply set_domain_at; [|exact I].
    destruct r; cbn [recv] in *; rewrite ?E; exact O1.
  - (* SetLocale *) subst p. apply Sym, (races_uw _ _ _ (PLocale h)).
    assert (X : forall s1, s_global s1 = s_global s -> gets s1 (go (QSetLocale r l d)) (PLocale h) true (fun _ => True)).
    { intros s1 E. cbn [run_request run_rcall]. apply gets_ref; [destruct r; cbn [recv] in *; rewrite ?E; exact O1|]. unfold set_locale_c. apply here_wr. exact I. }
    destruct C2 as [[C2 _]|C2]; [|eapply gets_weak; [|apply use_language; assumption]; intros s1 <-; apply X; reflexivity].
    destruct q'; cbn [changes] in C2; try contradiction; try discriminate; try (exfalso; clear - C2; intuition discriminate; fail).
    cbn [on] in O2. begin. unfold set_locale_c. apply here_wr. apply X. reflexivity.
  - (* SetSourceCodeLocale *) subst p. apply Sym, (races_uw _ _ _ (PSource h)).
    assert (X : forall s1, s_global s1 = s_global s -> gets s1 (go (QSetSource r l)) (PSource h) true (fun _ => True)).
    { intros s1 E. cbn [run_request run_rcall]. apply gets_ref; [destruct r; cbn [recv] in *; rewrite ?E; exact O1|]. unfold set_source_c. apply here_wr. exact I. }
    destruct C2 as [[C2 _]|C2]; [|eapply gets_weak; [|apply use_source; assumption]; intros s1 [_ E]; apply X, E].
    destruct q'; cbn [changes] in C2; try contradiction; try discriminate; try (exfalso; clear - C2; intuition discriminate; fail).
    cbn [on] in O2. begin. unfold set_source_c. apply here_wr. apply X. reflexivity.
  - (* Bind *) destruct C1 as [-> L].
    assert (D : (exists r', q' = QClear r') \/ uses q' Loaded).
    { destruct C2 as [[C2 _]|[C2 _]]; [|right; exact C2]. destruct q'; cbn [changes uses] in *; try contradiction; try discriminate; eauto. }
    destruct D as [[r' ->]|U].
    + apply (races_uw _ _ _ (PDomains h)). eapply gets_weak; [|apply use_loaded; [exact O1|split; [reflexivity|exact L]]].
      intros s1 [_ E]. apply clear_at; [|auto]. cbn [on] in O2. destruct r'; cbn [recv] in *; rewrite ?E; exact O2.
    + apply Sym, (races_uw _ _ _ (PMap (t_map (the_ts s h)))). eapply gets_weak; [|apply use_map; assumption].
      intros s1 [E1 E]. replace (the_ts s h) with (the_ts s1 h) by (unfold the_ts; rewrite E1; reflexivity).
      apply bind_at; [|exact L|auto]. destruct r; cbn [recv] in *; rewrite ?E; exact O1.
  - (* RemoveDomain *) destruct C1 as [Cp N], C1' as [Hd Hcur].
    assert (Ld : uses q' Loaded -> races s (go (QRemove r dom)) (go q') /\ races s (go q') (go (QRemove r dom))).
    { intros U. apply Sym, (races_wu _ _ _ (PMap (t_map (the_ts s h)))). apply remove_at; try assumption.
      eapply gets_weak; [|apply use_map; assumption]. auto. }
    assert (Cl : forall r', q' = QClear r' -> races s (go (QRemove r dom)) (go q') /\ races s (go q') (go (QRemove r dom))).
    { intros r' ->. apply (races_uw _ _ _ (PDomains h)). eapply gets_weak; [|apply use_loaded; [exact O1|split; [left; reflexivity|exact N]]].
      intros s1 [_ E]. apply clear_at; [|auto]. cbn [on] in O2. destruct r'; cbn [recv] in *; rewrite ?E; exact O2. }
    destruct Cp as [-> | ->].
    + destruct C2 as [[C2 _]|[C2 _]]; [|apply Ld, C2]. destruct q'; cbn [changes] in C2; try contradiction; try discriminate; try (apply Ld; exact C2). eapply Cl. reflexivity.
    + assert (G : gets s (go q') (PDomain h) false (eq s) -> races s (go (QRemove r dom)) (go q') /\ races s (go q') (go (QRemove r dom))).
      { intros G. apply Sym, (races_uw _ _ _ (PDomain h)). eapply gets_weak; [|exact G]. intros s1 <-. apply remove_at; auto. }
      assert (U : uses q' Current -> match q' with QRemove _ _ => False | _ => True end -> races s (go (QRemove r dom)) (go q') /\ races s (go q') (go (QRemove r dom)))
        by (intros U X; apply G, use_current; assumption).
      destruct q'; try (apply U; [destruct C2 as [[C2 _]|[C2 _]]; cbn [changes uses] in *; try contradiction; try discriminate; try (exfalso; clear - C2; intuition discriminate; fail); assumption|exact I]).
      * apply G, set_domain_at; [exact O2|reflexivity].
      * apply Ld. split; [left; reflexivity|]. destruct C2 as [[C2 _]|[C2 _]]; apply C2.
      * eapply Cl. reflexivity.
  - (* ClearDomains *)
    assert (Ld : uses q' Loaded -> races s (go (QClear r)) (go q') /\ races s (go q') (go (QClear r))).
    { intros U. apply Sym, (races_uw _ _ _ (PDomains h)). eapply gets_weak; [|apply use_loaded; assumption].
      intros s1 [_ E]. apply clear_at; [|auto]. destruct r; cbn [recv] in *; rewrite ?E; exact O1. }
    assert (Cl : forall r', q' = QClear r' -> races s (go (QClear r)) (go q') /\ races s (go q') (go (QClear r))).
    { intros r' ->. apply (races_uw _ _ _ (PDomains h)). apply clear_at; [exact O1|]. intros s1 [_ E]. apply clear_at; [|auto].
      cbn [on] in O2. destruct r'; cbn [recv] in *; rewrite ?E; exact O2. }
    destruct C1 as [-> | ->].
    + destruct C2 as [[C2 _]|[C2 _]]; [|apply Ld, C2]. destruct q'; cbn [changes] in C2; try contradiction; try discriminate; try (apply Ld; exact C2). eapply Cl. reflexivity.
    + assert (G : gets s (go q') (PDomain h) false (eq s) -> races s (go (QClear r)) (go q') /\ races s (go q') (go (QClear r))).
      { intros G. apply Sym, (races_uw _ _ _ (PDomain h)). eapply gets_weak; [|exact G]. intros s1 <-. apply clear_domain; auto. }
      assert (U : uses q' Current -> match q' with QRemove _ _ => False | _ => True end -> races s (go (QClear r)) (go q') /\ races s (go q') (go (QClear r)))
        by (intros U X; apply G, use_current; assumption).
      destruct q'; try (apply U; [destruct C2 as [[C2 _]|[C2 _]]; cbn [changes uses] in *; try contradiction; try discriminate; try (exfalso; clear - C2; intuition discriminate; fail); assumption|exact I]).
      * apply G, set_domain_at; [exact O2|reflexivity].
      * apply Ld. split; [left; reflexivity|]. destruct C2 as [[C2 _]|[C2 _]]; apply C2.
      * eapply Cl. reflexivity.
Qed.
Lemma clash_races s q q' : on s h q -> on s h q' -> clash_in s h q q' -> races s (go q) (go q').
Proof. intros O1 O2 (p & [[H1 H2]|[H1 H2]]); [exact (proj1 (touches s q q' p O1 O2 H1 H2))|exact (proj2 (touches s q' q p O2 O1 H1 H2))]. Qed.
End Facts.
