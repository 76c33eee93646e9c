(** Every access of a call to its handle is to one of the parts it names. *)
From Coq Require Import Lia Arith List.
From Verif Require Import GoStr GoMap GoMapFacts FileModel TransModel TransSpec TransFacts TransQuietFacts ConcModel HandleConcModel HandleConcSpec HandleRaceSpec.
Import ListNotations.
Local Open Scope nat_scope.
Section Facts.
Context {A : Type}.
Variable fmt : bytes -> list A -> bytes.
Variable norm : bytes -> bytes.
Notation state := (@state A).
Variable h : nat.
Variable g0 : nat.
Notation prog := (@gprog A).
Definition sub (K K' : nat -> Prop) : Prop := forall a, K a -> K' a.
Implicit Types (K : nat -> Prop) (O : list nat).
Lemma sub_refl K : sub K K.
Proof. intros a Ha. exact Ha. Qed.
Lemma sub_trans K K' K2 : sub K K' -> sub K' K2 -> sub K K2.
Proof. intros H1 H2 a Ha. apply H2, H1, Ha. Qed.
Local Hint Resolve sub_refl : core.
Ltac subs := solve [eauto using sub_refl, sub_trans | eauto 8 using sub_refl, sub_trans].
(** [us], [cs]: the parts of [h] the goroutine may look at and change; [O]: the
    handles it made *)
Definition may_read (us : part -> Prop) (O : list nat) (x : place) : Prop :=
  match x with
  | PLocale a => a = h /\ us Language \/ In a O
  | PDomain a => a = h /\ us Current \/ In a O
  | PSource a => a = h /\ us Source \/ In a O
  | PDomains a => a = h /\ us Loaded \/ In a O
  | PMap _ => us Loaded
  | _ => True
  end.
Definition may_write (cs : part -> Prop) (O : list nat) (x : place) : Prop :=
  match x with
  | PLocale a => a = h /\ cs Language \/ In a O
  | PDomain a => a = h /\ cs Current \/ In a O
  | PSource a => a = h /\ cs Source \/ In a O
  | PDomains a => a = h /\ cs Loaded \/ In a O
  | PMap _ => cs Loaded
  | _ => False
  end.
(** what can be read: [K] are the catalogs whose fields are computed *)
Definition plausible (K : nat -> Prop) (x : place) : @holds A x -> Prop :=
  match x return @holds A x -> Prop with
  | PGlobal => fun v => v = g0
  | PLangs _ => fun v => forall l a, mget l v = Some (TFile a) -> K a
  | PHeaders a => fun v => K a -> v <> None
  | PPlural a => fun v => K a -> v <> None
  | _ => fun _ => True
  end.
Fixpoint safe {R} (us cs : part -> Prop) (p : prog R) : (nat -> Prop) -> list nat -> Prop :=
  match p with
  | GRet _ => fun _ _ => True
  | Rd x k => fun K O => may_read us O x /\ forall K' v, sub K K' -> plausible K' x v -> safe us cs (k v) K' O
  | Wr x _ k => fun K O => may_write cs O x /\ safe us cs k K O
  | NewTs _ k => fun K O => forall a, safe us cs (k a) K (a :: O)
  | NewMap _ k => fun K O => forall m, safe us cs (k m) K O
  | Load _ wm wp k => fun K O => forall t, safe us cs (k (if existsb okb (hits (B ".mo") wm ++ hits (B ".po") wp) then Some t else None)) K O
  end.
Lemma safe_mono {R} us cs (p : prog R) : forall K K' O, sub K K' -> safe us cs p K O -> safe us cs p K' O.
Proof.
  induction p as [r|x k IH|x f k IH|r k IH|g k IH|d wm wp k IH]; intros K K' O S P; cbn [safe] in *; auto.
  - destruct P as [P1 P2]. split; [exact P1|]. intros K2 v S2 Pv. apply (P2 K2 v); [eapply sub_trans; eassumption|exact Pv].
  - destruct P as [P1 P2]. split; [exact P1|]. apply (IH K K' O S P2).
  - intros a. apply (IH a K); auto.
  - intros a. apply (IH a K); auto.
  - intros t. apply (IH _ K); auto.
Qed.
(** ** Calls *)
Section Calls.
Variable R : Type.
Variable us cs : part -> Prop.
Notation sf := (@safe R us cs).
(** whatever is computed and owned *)
Definition always (p : prog R) : Prop := forall K O, sf p K O.
Lemma safe_clone a k K O : (a = h \/ In a O) -> (a = h -> forall p, us p) -> us Loaded ->
  (forall r K', sub K K' -> sf (k r) K' (r :: O)) -> sf (clone_c a k) K O.
Proof.
  intros Ha Hu Ul Hk. unfold clone_c. cbn [safe may_read plausible].
  assert (M : forall p, a = h /\ us p \/ In a O) by (intros p; destruct Ha as [-> |Ha]; [left; auto|right; exact Ha]).
  split; [apply M|]. intros K1 lo S1 _. split; [apply M|]. intros K2 d S2 _. split; [apply M|]. intros K3 m S3 _.
  split; [exact Ul|]. intros K4 g S4 _ m'. split; [apply M|]. intros K5 so S5 _ r. apply Hk; subs.
Qed.
Lemma safe_get dom k K O : us Loaded -> (forall o K', sub K K' -> sf (k o) K' O) -> sf (get_c h dom k) K O.
Proof.
  intros U Hk. unfold get_c. cbn [safe may_read plausible]. split; [left; auto|]. intros K1 m S1 _. split; [exact U|].
  intros K2 g S2 _. apply Hk; subs.
Qed.
Lemma safe_tor k K O : us Loaded -> us Current -> us Language ->
  (forall x K', sub K K' -> (forall a, x = TFile a -> K' a) -> sf (k x) K' O) -> sf (tor_c h k) K O.
Proof.
  intros U1 U2 U3 Hk. unfold tor_c. cbn [safe may_read plausible]. split; [left; auto|]. intros K1 dom S1 _.
  apply safe_get; [exact U1|]. intros o K2 S2. cbv zeta. cbn [safe may_read plausible]. split; [left; auto|].
  intros K3 l S3 _. split; [exact I|]. intros K4 ls S4 P4. apply Hk; [subs|]. intros a E.
  destruct (mget l ls) as [x|] eqn:El; [|discriminate]. subst x. apply (P4 l a El).
Qed.
Lemma safe_lift a o es k K O : K a -> match o with CX _ _ _ | CXN _ _ _ _ _ => True | _ => False end ->
  (forall r, always (k r)) -> sf (lift a (run_call fmt es o) k) K O.
Proof.
  intros Ka Ho Hk. destruct o as [|n|c i args|c i i2 n args]; try contradiction; cbn [run_call lift].
  - apply Hk.
  - destruct (mget (key c i) es) as [e|]; [|apply Hk]. destruct (is_empty (e_id2 e) && _)%bool; [apply Hk|].
    unfold get_plural_c, init_plural_c. cbn [lift safe may_read plausible]. split; [exact I|]. intros K1 v S1 P1.
    destruct v as [p|]; [|exfalso; apply P1; [apply S1, Ka|reflexivity]]. cbn [lift safe may_read plausible].
    split; [exact I|]. intros K2 v S2 P2. destruct v as [q|]; [|apply Hk]. destruct (p_total q <=? 0)%Z; [apply Hk|]. cbv zeta.
    destruct (_ || _ || _)%bool; [apply Hk|]. destruct (nth_error (e_strn e) _) as [s|]; [|apply Hk]. destruct (is_empty s); apply Hk.
Qed.
Lemma safe_x k c i args K O : us Loaded -> us Current -> us Language -> (forall r, always (k r)) -> sf (x_c fmt h c i args k) K O.
Proof.
  intros U1 U2 U3 Hk. apply safe_tor; try assumption. intros x K1 S1 Ex. destruct x as [|a|u]; try apply Hk.
  unfold file_c. cbn [safe may_read plausible]. split; [exact I|]. intros K2 es S2 _. apply safe_lift; [apply S2, (Ex a eq_refl)|exact I|exact Hk].
Qed.
Lemma safe_xn k c i i2 n args K O : us Loaded -> us Current -> us Language -> (forall r, always (k r)) -> sf (xn_c fmt h c i i2 n args k) K O.
Proof.
  intros U1 U2 U3 Hk. apply safe_tor; try assumption. intros x K1 S1 Ex. destruct x as [|a|u]; try apply Hk.
  unfold file_c. cbn [safe may_read plausible]. split; [exact I|]. intros K2 es S2 _. apply safe_lift; [apply S2, (Ex a eq_refl)|exact I|exact Hk].
Qed.
Lemma safe_used k K O : (forall p, us p) -> (forall r, always (k r)) -> sf (used_c h k) K O.
Proof.
  intros U Hk. unfold used_c. cbn [safe may_read plausible]. split; [left; auto|]. intros K1 dom S1 _.
  apply safe_get; [apply U|]. intros [t|] K2 S2; cbn [safe may_read plausible].
  - split; [left; auto|]. intros K3 l S3 _. split; [exact I|]. intros K4 ls S4 _.
    destruct (mget l ls); cbn [safe may_read plausible]; (split; [left; auto|]); intros K5 v S5 _; apply Hk.
  - split; [left; auto|]. intros K3 v S3 _. apply Hk.
Qed.
Lemma safe_locales k K O : us Loaded -> us Current -> us Source -> (forall so ls K', sub K K' -> sf (k so ls) K' O) -> sf (locales_c h k) K O.
Proof.
  intros U1 U2 U3 Hk. unfold locales_c. cbn [safe may_read plausible]. split; [left; auto|]. intros K1 dom S1 _.
  apply safe_get; [exact U1|]. intros o K2 S2. cbv zeta. cbn [safe may_read plausible]. split; [left; auto|].
  intros K3 so S3 _. split; [exact I|]. intros K4 ls S4 _. apply Hk; subs.
Qed.
Lemma safe_remove dom k K O : (dom <> [] -> us Loaded /\ us Current /\ cs Loaded /\ cs Current) -> (forall b, always (k b)) -> sf (remove_c h dom k) K O.
Proof.
  intros U Hk. unfold remove_c. destruct dom as [|c dom]; [apply Hk|]. destruct U as (U1 & U2 & C1 & C2); [discriminate|].
  unfold has_c. cbn [safe may_read plausible]. split; [left; auto|]. intros K1 m S1 _. split; [exact U1|]. intros K2 g S2 _.
  destruct (negb _); [apply Hk|]. cbn [safe may_read may_write plausible]. split; [left; auto|]. intros K3 m' S3 _.
  split; [exact C1|]. split; [left; auto|]. intros K4 d S4 _. destruct (beq d (c :: dom)); [|apply Hk].
  cbn [safe may_write]. split; [left; auto|apply Hk].
Qed.
Lemma safe_ref own r k K O (s : state) : g0 = s_global s -> match r with HGlob => s_global s = h | HShared a => a = h | HOwn _ => False end ->
  (forall K', sub K K' -> sf (k h) K' O) -> sf (@with_ref A R own r k) K O.
Proof.
  intros G Hr Hk. destruct r as [|a|i]; cbn [with_ref]; [|subst a; apply Hk; auto|contradiction].
  cbn [safe may_read plausible]. split; [exact I|]. intros K1 v S1 ->. rewrite G, Hr. apply Hk; subs.
Qed.
Lemma safe_call s own q k : g0 = s_global s -> on s h q -> (forall p, uses q p -> us p) -> (forall p, changes q p -> cs p) ->
  (forall r own', always (k r own')) -> always (run_rcall fmt norm own q k).
Proof.
  intros G Ho Hu Hc Hk K O.
  assert (Cl : forall K O a f, (a = h -> forall p, us p) -> us Loaded -> a = h \/ In a O -> (forall r K', sub K K' -> sf (f r) K' (r :: O)) -> sf (clone_c a f) K O)
    by (intros; apply safe_clone; assumption).
  destruct q as [d| |c d|r dom|r l d|r dom|r l d|r l|r dom wm wp|r dom|r|r dom|r|r|r|r|r|r|r|ck|r c i args|r c i i2 n args]; cbn [on uses changes run_rcall] in *;
    try (apply (safe_ref own r _ K O s G Ho); intros K' _; clear K; rename K' into K).
  - (* NewTranslations *) unfold new_c. cbn [safe]. intros m a. apply Hk.
  - (* Global *) unfold global_c. cbn [safe may_read plausible]. split; [exact I|]. intros K1 v S1 ->. rewrite G, Ho.
    apply Cl; auto. intros r K2 S2. apply Hk.
  - (* WithContext *) unfold with_context_c, global_c. cbn [safe may_read plausible]. split; [exact I|]. intros K1 v S1 ->. rewrite G, Ho.
    apply Cl; auto. intros r K2 S2. cbv zeta.
    assert (Td : forall a K O, In a O -> sf match get_ctx_domain c with Some dom => D_c a dom (fun b => k ANone (own ++ [b])) | None => k ANone (own ++ [a]) end K O).
    { intros a K3 O3 Ia. destruct (get_ctx_domain c) as [dm|]; [|apply Hk]. unfold D_c, set_domain_c. apply Cl; auto. intros b K4 S4. cbn [safe may_write].
      split; [right; left; reflexivity|apply Hk]. }
    destruct (get_ctx_locale c) as [lc|]; [|apply Td; left; reflexivity]. unfold L_c, set_locale_c. apply Cl; auto; [right; left; reflexivity|].
    intros b K4 S4. cbn [safe may_write]. split; [right; left; reflexivity|apply Td; left; reflexivity].
  - unfold D_c, set_domain_c. apply Cl; auto. intros b K4 S4. cbn [safe may_write]. split; [right; left; reflexivity|apply Hk].
  - unfold L_c, set_locale_c. apply Cl; auto. intros b K4 S4. cbn [safe may_write]. split; [right; left; reflexivity|apply Hk].
  - unfold set_domain_c. cbn [safe may_write]. split; [left; auto|apply Hk].
  - unfold set_locale_c. cbn [safe may_write]. split; [left; auto|apply Hk].
  - unfold set_source_c. cbn [safe may_write]. split; [left; auto|apply Hk].
  - unfold bind_c. cbn [safe]. intros t. destruct (existsb okb _) eqn:E; [|apply Hk]. apply some_loaded_iff in E. cbn [safe may_read may_write plausible].
    split; [left; split; [reflexivity|apply Hu; auto]|]. intros K1 m S1 _. split; [apply Hc; auto|apply Hk].
  - apply safe_remove; [|intros b; apply Hk]. intros N. repeat split; first [apply Hu; auto; fail|apply Hc; auto; fail].
  - unfold clear_c. cbn [safe may_write]. intros m. split; [left; auto|]. split; [left; auto|apply Hk].
  - unfold has_c. cbn [safe may_read plausible]. split; [left; auto|]. intros K1 m S1 _. split; [auto|]. intros K2 g S2 _. apply Hk.
  - cbn [safe may_read plausible]. split; [left; auto|]. intros K1 v S1 _. apply Hk.
  - cbn [safe may_read plausible]. split; [left; auto|]. intros K1 v S1 _. apply Hk.
  - cbn [safe may_read plausible]. split; [left; auto|]. intros K1 v S1 _. apply Hk.
  - apply safe_used; [auto|]. intros v. apply Hk.
  - unfold domains_c. cbn [safe may_read plausible]. split; [left; auto|]. intros K1 m S1 _. split; [auto|]. intros K2 g S2 _. apply Hk.
  - apply safe_locales; try (apply Hu; discriminate). intros so ls K2 S2. apply Hk.
  - (* MostMatchLocale *)
    assert (M : always (Rd PGlobal (fun g => locales_c g (fun so ls => Rd PGlobal (fun g => Rd (PLocale g) (fun l => k (AMatched so ls l) own)))))).
    { intros K1 O1. cbn [safe may_read plausible]. split; [exact I|]. intros K2 v S2 ->. rewrite G, Ho. apply safe_locales; auto.
      intros so ls K3 S3. cbn [safe may_read plausible]. split; [exact I|]. intros K4 v S4 ->. rewrite G, Ho. split; [left; auto|]. intros K5 l S5 _. apply Hk. }
    destruct r; cbn [with_ref]; [|apply M|apply M]. cbn [safe may_read plausible]. split; [exact I|]. intros K1 v S1 _. apply M.
  - (* GetUserLang *) destruct ck as [v|]; [apply Hk|]. cbn [safe may_read plausible]. split; [exact I|]. intros K1 v S1 ->. rewrite G, Ho.
    apply safe_locales; try (apply Hu; discriminate). intros so ls K2 S2. apply Hk.
  - apply safe_x; try (apply Hu; discriminate). intros v. apply Hk.
  - apply safe_xn; try (apply Hu; discriminate). intros v. apply Hk.
Qed.
End Calls.
Lemma safe_request (us cs : part -> Prop) (s : state) : g0 = s_global s -> forall qs own acc,
  Forall (fun q => on s h q /\ (forall p, uses q p -> us p) /\ (forall p, changes q p -> cs p)) qs ->
  always _ us cs (run_request fmt norm own acc qs).
Proof.
  intros G. induction qs as [|q qs IH]; intros own acc F; [intros K O; exact I|]. inversion F as [|? ? (F1 & F2 & F3) Fq]; subst.
  cbn [run_request]. eapply safe_call; try eassumption. intros r own'. destruct r; try (apply IH; exact Fq). intros K O. exact I.
Qed.
(** ** Executions *)
Definition computed (s : state) (a : nat) : Prop := a < length (s_files s) /\ ready (the_file s a).
Lemma plausible_get (s : state) x : calm s -> s_global s = g0 -> plausible (computed s) x (get s x).
Proof.
  intros C G. destruct x; cbn [plausible get]; try exact I.
  - exact G.
  - intros l a E. exact (c_tors s C _ _ _ E).
  - intros [_ [H _]]. exact H.
  - intros [_ [_ H]]. exact H.
Qed.
Definition split_ok (n : nat) (s : state) (Of : nat -> list nat) : Prop :=
  (forall j a, In a (Of j) -> n <= a < length (s_ts s)) /\ (forall i j a, In a (Of i) -> In a (Of j) -> i = j).
Definition inv_race {R} (n : nat) (uss css : nat -> part -> Prop) (s : state) (ps : list (prog R)) (Of : nat -> list nat) : Prop :=
  calm s /\ s_global s = g0 /\ n <= length (s_ts s) /\ split_ok n s Of
  /\ forall j p, nth_error ps j = Some p -> safe (uss j) (css j) p (computed s) (Of j).
Lemma computed_same (s s' : state) : s_files s' = s_files s -> sub (computed s) (computed s').
Proof. intros E a H. unfold computed, the_file in *. rewrite E. exact H. Qed.
Lemma split_same n (s s' : state) Of : length (s_ts s) <= length (s_ts s') -> split_ok n s Of -> split_ok n s' Of.
Proof. intros L [H1 H2]. split; [|exact H2]. intros j a Ha. specialize (H1 j a Ha). lia. Qed.
Lemma put_quiet (s : state) x v (cs : part -> Prop) O : may_write cs O x -> s_trs (put s x v) = s_trs s /\ s_files (put s x v) = s_files s /\ s_global (put s x v) = s_global s
  /\ length (s_ts (put s x v)) = length (s_ts s).
Proof.
  destruct x; cbn [may_write put]; intros H; try contradiction; repeat split; try reflexivity; cbn [set_ts s_ts]; apply upd_length.
Qed.
Lemma nth_mid {X} (a b : list X) x y j q : nth_error (a ++ y :: b) j = Some q -> (j = length a /\ q = y) \/ (j <> length a /\ nth_error (a ++ x :: b) j = Some q).
Proof.
  intros E. destruct (Nat.eq_dec j (length a)) as [->|N].
  - left. split; [reflexivity|]. rewrite nth_error_app2, Nat.sub_diag in E by lia. injection E as <-. reflexivity.
  - right. split; [exact N|]. destruct (Nat.lt_ge_cases j (length a)) as [L|L].
    + rewrite nth_error_app1 in * by exact L. exact E.
    + rewrite nth_error_app2 in * by exact L. replace (j - length a) with (S (j - S (length a))) in * by lia. exact E.
Qed.
Lemma nth_at {X} (a b : list X) x : nth_error (a ++ x :: b) (length a) = Some x.
Proof. rewrite nth_error_app2, Nat.sub_diag by lia. reflexivity. Qed.
Definition give (Of : nat -> list nat) (j x : nat) : nat -> list nat := fun i => if i =? j then x :: Of i else Of i.
Lemma inv_step {R} n uss css s a (p : prog R) b s' p' Of : inv_race n uss css s (a ++ p :: b) Of -> gstep norm s p = Some (s', p') ->
  exists Of', inv_race n uss css s' (a ++ p' :: b) Of'.
Proof.
  intros (C & G & Ln & Sp & Sf) St. pose proof (Sf _ _ (nth_at a b p)) as P.
  assert (Same : forall s1 q, s_trs s1 = s_trs s -> s_files s1 = s_files s -> s_global s1 = s_global s -> length (s_ts s1) = length (s_ts s) ->
            safe (uss (length a)) (css (length a)) q (computed s1) (Of (length a)) -> exists Of', inv_race n uss css s1 (a ++ q :: b) Of').
  { intros s1 q E1 E2 E3 E4 Q. exists Of. split; [apply (calm_same s); assumption|]. split; [congruence|]. split; [lia|].
    split; [apply (split_same n s); [lia|exact Sp]|]. intros j r Er. destruct (nth_mid a b p q j r Er) as [[-> ->]|[N E]]; [exact Q|].
    eapply safe_mono; [apply computed_same, E2|apply Sf, E]. }
  destruct p as [r|x k|x f k|r k|g k|d wm wp k]; cbn [gstep safe] in St, P.
  - discriminate.
  - injection St as <- <-. apply Same; try reflexivity. apply P; [apply sub_refl|apply plausible_get; assumption].
  - injection St as <- <-. destruct P as [P1 P2]. destruct (put_quiet s x (f (get s x)) _ _ P1) as (E1 & E2 & E3 & E4).
    apply Same; try assumption. eapply safe_mono; [apply computed_same, E2|exact P2].
  - unfold new_ts in St. injection St as <- <-. exists (give Of (length a) (length (s_ts s))).
    split; [eapply calm_same; [| |exact C]; reflexivity|]. split; [exact G|]. cbn [s_ts]. split; [rewrite app_length; lia|]. split.
    + destruct Sp as [Q1 Q2]. split.
      * intros j x. cbn [s_ts]. rewrite app_length. cbn [length]. unfold give. destruct (j =? length a); [intros [<-|H]|intros H]; try (specialize (Q1 j x H)); lia.
      * intros i j x. unfold give. destruct (i =? length a) eqn:Ei, (j =? length a) eqn:Ej; try apply Q2.
        -- apply Nat.eqb_eq in Ei, Ej. congruence.
        -- intros [<-|H] H'; [specialize (Q1 _ _ H'); lia|apply (Q2 _ _ _ H H')].
        -- intros H [<-|H']; [specialize (Q1 _ _ H); lia|apply (Q2 _ _ _ H H')].
    + intros j q Eq. destruct (nth_mid a b (NewTs r k) _ j q Eq) as [[-> ->]|[N E]].
      * unfold give. rewrite Nat.eqb_refl. exact (P (length (s_ts s))).
      * unfold give. rewrite (proj2 (Nat.eqb_neq _ _) N). exact (Sf _ _ E).
  - unfold new_map in St. injection St as <- <-. apply Same; try reflexivity. exact (P _).
  - assert (Lt : length (s_trs s) < length (s_trs (snd (new_translation s d)))) by (unfold new_translation, new_tr; cbn [snd s_trs]; rewrite app_length; cbn [length]; lia).
    change (new_translation s d) with (length (s_trs s), snd (new_translation s d)) in St. cbv beta iota in St.
    rewrite load_fs_spec in St by exact Lt. injection St as <- <-. exists Of.
    assert (Sub : sub (computed s) (computed (with_files norm (snd (new_translation s d)) (length (s_trs s)) (catalogs (B ".mo") wm ++ catalogs (B ".po") wp)))).
    { intros x [L Rx]. split; [unfold with_files; cbn [s_files]; rewrite app_length; change (s_files (snd (new_translation s d))) with (s_files s); lia|].
      rewrite with_files_files by exact L. exact Rx. }
    split; [apply (calm_with_files fmt norm); [exact Lt|apply Forall_app; split; apply built_catalogs|apply (calm_new_tr fmt norm), C]|].
    split; [exact G|]. split; [exact Ln|]. split; [exact Sp|]. intros j q Eq.
    destruct (nth_mid a b (Load d wm wp k) _ j q Eq) as [[-> ->]|[N E]]; (eapply safe_mono; [exact Sub|]); [exact (P (length (s_trs s)))|exact (Sf _ _ E)].
Qed.
Lemma inv_steps {R} n uss css (c c' : state * list (prog R)) : gsteps norm c c' -> (exists Of, inv_race n uss css (fst c) (snd c) Of) ->
  exists Of, inv_race n uss css (fst c') (snd c') Of.
Proof.
  induction 1 as [c|c s a p b s' p' St IH Ge]; intros H; [exact H|]. destruct (IH H) as [Of Q]. cbn [fst snd] in *.
  exact (inv_step n uss css s a p b s' p' Of Q Ge).
Qed.
Lemma inv_no_race {R} n uss css s (ps : list (prog R)) Of : h < n -> inv_race n uss css s ps Of ->
  (forall i j p, i <> j -> css i p -> ~ (css j p \/ uss j p)) -> ~ handle_race ps.
Proof.
  intros Hn (_ & _ & _ & (Q1 & Q2) & Sf) Nc (i & j & p & q & x & N & Ei & Ej & Wi & Uj).
  pose proof (Sf _ _ Ei) as Pi. pose proof (Sf _ _ Ej) as Pj.
  destruct p as [| |y f k| | |]; try contradiction. cbn [writes_at] in Wi. subst y. cbn [safe] in Pi. destruct Pi as [Pi _].
  assert (Pj' : may_read (uss j) (Of j) x \/ may_write (css j) (Of j) x).
  { destruct q as [|y k'|y f' k'| | |]; try contradiction; cbn [uses_at] in Uj; subst y; cbn [safe] in Pj; [left|right]; apply Pj. }
  assert (Hi : ~ In h (Of i)) by (intros H; specialize (Q1 _ _ H); lia). assert (Hj : ~ In h (Of j)) by (intros H; specialize (Q1 _ _ H); lia).
  assert (Key : forall a pt, a = h /\ css i pt \/ In a (Of i) -> (a = h /\ uss j pt \/ In a (Of j)) \/ (a = h /\ css j pt \/ In a (Of j)) -> False).
  { intros a pt [[-> H]|H] [[[E H']|H']|[[E H']|H']]; try (subst a; contradiction); try contradiction.
    - apply (Nc i j pt N H). right. exact H'.
    - apply (Nc i j pt N H). left. exact H'.
    - apply N, (Q2 i j a H H').
    - apply N, (Q2 i j a H H'). }
  destruct x; cbn [may_write may_read] in *; try contradiction; try (eapply Key; eassumption).
  apply (Nc i j Loaded N Pi). tauto.
Qed.
End Facts.
