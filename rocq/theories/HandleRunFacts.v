(** A goroutine that runs alone does what TransModel.v says. *)
From Coq Require Import Lia Arith.
From Verif Require Import GoStr GoMap FileModel TransModel TransFacts TransQuietFacts ConcModel ConcSpec ConcFacts HandleConcModel HandleConcSpec
  HandleConcFacts HandleCallFacts.
Local Open Scope nat_scope.

Section Run.
Context {A : Type}.
Variable fmt : bytes -> list A -> bytes.
Variable norm : bytes -> bytes.
Notation state := (@state A).
Implicit Types s : state.

Inductive runs {R} : state -> @gprog A R -> state -> @gprog A R -> Prop :=
| U_refl s p : runs s p s p
| U_step s p s1 p1 s' p' : gstep norm s p = Some (s1, p1) -> runs s1 p1 s' p' -> runs s p s' p'.
Lemma runs_trans {R} s (p : gprog R) s1 p1 s2 p2 : runs s p s1 p1 -> runs s1 p1 s2 p2 -> runs s p s2 p2.
Proof. induction 1 as [s p|s p s1 p1 s' p' E H IH]; intros K; [exact K|]. apply (U_step _ _ _ _ _ _ E (IH K)). Qed.
Lemma runs_eq {R} s (p : gprog R) s1 p1 s1' p1' : s1 = s1' -> p1 = p1' -> runs s p s1 p1 -> runs s p s1' p1'.
Proof. intros -> ->. auto. Qed.
Lemma runs_steps {R} s (p : gprog R) s' p' : runs s p s' p' -> gsteps norm (s, [p]) (s', [p']).
Proof.
  intros H. assert (G : forall c, gsteps norm c (s, [p]) -> gsteps norm c (s', [p'])); [|apply G; constructor].
  induction H as [s p|s p s1 p1 s' p' E H IH]; intros c K; [exact K|]. apply IH. apply (GS_step norm c s [] p [] s1 p1 K E).
Qed.
Ltac go := eapply U_step; [reflexivity|].

(** ** States *)
Lemma upd_out {X} n (x : X) l : length l <= n -> upd n x l = l.
Proof. revert n. induction l as [|y l IH]; intros [|n] H; cbn [upd length] in *; try reflexivity; [lia|]. rewrite IH by lia. reflexivity. Qed.
Lemma set_ts_ts s h x y : set_ts (set_ts s h x) h y = set_ts s h y.
Proof. unfold set_ts. cbn [s_ts s_maps s_trs s_files s_global]. rewrite upd_upd. reflexivity. Qed.
Lemma set_ts_out s h x : length (s_ts s) <= h -> set_ts s h x = s.
Proof. intros H. unfold set_ts. rewrite upd_out by exact H. destruct s; reflexivity. Qed.
Lemma set_file_file s a x y : set_file (set_file s a x) a y = set_file s a y.
Proof. unfold set_file. cbn [s_ts s_maps s_trs s_files s_global]. rewrite upd_upd. reflexivity. Qed.
Lemma set_file_same s a : set_file s a (the_file s a) = s.
Proof. unfold set_file, the_file. rewrite upd_same. destruct s; reflexivity. Qed.
Lemma the_file_set s a f : a < length (s_files s) -> the_file (set_file s a f) a = f.
Proof. intros H. unfold the_file, set_file. cbn [s_files]. apply nth_upd_same, H. Qed.

Section R.
Context {R : Type}.
Implicit Types k : nat -> @gprog A R.
Lemma run_clone s h k : runs s (clone_c h k) (snd (clone s h)) (k (fst (clone s h))).
Proof. unfold clone_c. do 7 go. apply U_refl. Qed.
Lemma run_D s h dom k : runs s (D_c h dom k) (snd (h_D s h dom)) (k (fst (h_D s h dom))).
Proof. unfold D_c. eapply runs_trans; [apply run_clone|]. unfold set_domain_c. go. unfold h_D. destruct (clone s h) as [r s1]. apply U_refl. Qed.
Lemma run_L s h l d k : runs s (L_c norm h l d k) (snd (h_L norm s h l d)) (k (fst (h_L norm s h l d))).
Proof. unfold L_c. eapply runs_trans; [apply run_clone|]. unfold set_locale_c. go. unfold h_L. destruct (clone s h) as [r s1]. apply U_refl. Qed.
Lemma run_global s k : runs s (global_c k) (snd (g_clone s)) (k (fst (g_clone s))).
Proof. unfold global_c. go. apply run_clone. Qed.
Lemma run_with s c d k : runs s (with_context_c norm c d k) (snd (with_context norm s c d)) (k (fst (with_context norm s c d))).
Proof.
  unfold with_context_c, with_context. eapply runs_trans; [apply run_global|]. destruct (g_clone s) as [h s1]. cbn [fst snd]. cbv zeta.
  destruct (get_ctx_locale c) as [l|].
  - eapply runs_trans; [apply run_L|]. destruct (h_L norm s1 h l d) as [h2 s2]. cbn [fst snd].
    destruct (get_ctx_domain c) as [dom|]; [apply run_D|apply U_refl].
  - destruct (get_ctx_domain c) as [dom|]; [apply run_D|apply U_refl].
Qed.
Lemma run_clear s h (p : gprog R) : runs s (clear_c h p) (clear_domains s h) p.
Proof.
  unfold clear_c, clear_domains. do 3 go. cbn [new_map]. apply (runs_eq _ _ _ _ _ _ eq_refl eq_refl).
  match goal with |- runs ?a _ ?b _ => assert (E : a = b); [|rewrite E; apply U_refl] end.
  cbn [put get]. set (s1 := snd (new_map s [])). set (m := fst (new_map s [])).
  change {| s_ts := s_ts s; s_maps := s_maps s ++ [[]]; s_trs := s_trs s; s_files := s_files s; s_global := s_global s |} with s1.
  destruct (Nat.lt_ge_cases h (length (s_ts s1))) as [L|L].
  - rewrite set_ts_ts. rewrite the_ts_set by exact L. rewrite Nat.eqb_refl. reflexivity.
  - rewrite !(set_ts_out s1) by exact L. reflexivity.
Qed.
Lemma run_remove s h dom (k : bool -> gprog R) : runs s (remove_c h dom k) (snd (remove_domain s h dom)) (k (fst (remove_domain s h dom))).
Proof.
  unfold remove_c, remove_domain. destruct dom as [|ch dom]; [apply U_refl|]. unfold has_c. do 2 go. cbn [get].
  unfold has_domain, h_domains. destruct (existsb (beq (ch :: dom)) (keys (the_map s (t_map (the_ts s h))))); cbn [negb]; [|apply U_refl].
  do 3 go. cbn [put get]. unfold h_domain. cbn [the_ts set_map s_ts].
  destruct (beq (t_domain (nth h (s_ts s) no_ts)) (ch :: dom)) eqn:E.
  - unfold the_ts, set_map in *. cbn [s_ts] in *. rewrite E. go. apply U_refl.
  - unfold the_ts, set_map in *. cbn [s_ts] in *. rewrite E. apply U_refl.
Qed.
Lemma run_used s h (k : bytes -> gprog R) : runs s (used_c h k) s (k (used_locale s h)).
Proof.
  unfold used_c, get_c, used_locale, h_get, h_domain, h_domains, h_source, h_locale, tr_get. do 3 go. cbn [get].
  destruct (mget (t_domain (the_ts s h)) (the_map s (t_map (the_ts s h)))) as [t|]; [|go; apply U_refl].
  do 2 go. cbn [get]. destruct (mget (t_locale (the_ts s h)) (tr_langs (the_tr s t))); go; apply U_refl.
Qed.
Lemma run_locales s h (k : bytes -> list bytes -> gprog R) : runs s (locales_c h k) s (k (h_source s h) (langs_of s h)).
Proof. unfold locales_c, get_c, langs_of, h_get_or_noop, h_get, h_domain, h_domains, h_source. do 5 go. apply U_refl. Qed.
Lemma run_tor s h (k : tor -> gprog R) : runs s (tor_c h k) s (k (the_tor s h)).
Proof. unfold tor_c, get_c, the_tor, tr_get_or_noop, h_get_or_noop, h_get, h_domain, h_domains, h_locale. do 5 go. apply U_refl. Qed.
Lemma run_init_header s a T (p : prog T) (k : T -> gprog R) (q : prog T) : a < length (s_files s) ->
  q = ReadHeaders (fun h => match h with Some _ => p | None =>
    WriteHeaders (match mget (key [] []) (f_entries (the_file s a)) with Some e => parse_headers (e_str e) | None => [] end) p end) ->
  runs s (lift a q k) (set_file s a (init_header (the_file s a))) (lift a p k).
Proof.
  intros L ->. cbn [lift]. go. cbn [get]. unfold init_header. destruct (f_headers (the_file s a)) as [h|] eqn:E.
  - rewrite set_file_same. apply U_refl.
  - cbn [lift]. go. apply U_refl.
Qed.
Lemma entries_header f : f_entries (init_header f) = f_entries f.
Proof. unfold init_header. destruct (f_headers f); reflexivity. Qed.
Lemma plural_header f : f_plural (init_header f) = f_plural f.
Proof. unfold init_header. destruct (f_headers f); reflexivity. Qed.
Lemma run_plural s a (g : option plural -> prog result) (k : result -> gprog R) : a < length (s_files s) ->
  runs s (lift a (get_plural_c (f_entries (the_file s a)) g) k) (set_file s a (init_plural (the_file s a)))
    (lift a (g (f_plural (init_plural (the_file s a)))) k).
Proof.
  intros L. unfold get_plural_c, init_plural_c. cbn [lift]. go. cbn [get]. unfold init_plural. destruct (f_plural (the_file s a)) as [p|] eqn:E.
  - cbn [lift]. go. cbn [get]. rewrite set_file_same, E. apply U_refl.
  - unfold get_header_c. eapply runs_trans.
    { eapply (run_init_header s a result); [exact L|reflexivity]. }
    cbn [lift]. do 3 go. cbn [get put]. cbn [get_header]. rewrite !the_file_set by exact L.
    rewrite set_file_file. rewrite !the_file_set by exact L. apply U_refl.
Qed.
Lemma run_file s a c i i2 n args (k : result -> gprog R) : a < length (s_files s) ->
  runs s (file_c fmt a (CXN c i i2 n args) k) (set_file s a (snd (f_xn64 fmt (the_file s a) c i i2 n args)))
    (k (match fst (f_xn64 fmt (the_file s a) c i i2 n args) with XStr t => RText t | XPanic => RPanics end)).
Proof.
  intros L. unfold file_c. go. cbn [get run_call]. unfold f_xn64.
  destruct (mget (key c i) (f_entries (the_file s a))) as [e|]; [|cbn [lift fst snd]; rewrite set_file_same; apply U_refl].
  destruct (is_empty (e_id2 e) && match e_strn e with [] => true | _ :: _ => false end).
  { cbn [lift fst snd]. rewrite set_file_same. apply U_refl. }
  eapply runs_trans; [apply run_plural, L|]. destruct (f_plural (init_plural (the_file s a))) as [p|]; [|cbn [lift fst snd]; apply U_refl].
  destruct (p_total p <=? 0)%Z; [cbn [lift fst snd]; apply U_refl|].
  cbv zeta. match goal with |- context [if ?b then _ else _] => destruct b end; [cbn [lift fst snd]; apply U_refl|].
  destruct (nth_error (e_strn e) (Z.to_nat (plural_fn p n))) as [t|]; [|cbn [lift fst snd]; apply U_refl].
  destruct (is_empty t); cbn [lift fst snd]; apply U_refl.
Qed.
Lemma run_x s h c i args (k : result -> gprog R) : runs s (x_c fmt h c i args k) s (k (RText (h_x fmt s h c i args))).
Proof.
  unfold x_c. eapply runs_trans; [apply run_tor|]. unfold h_x, tor_x. destruct (the_tor s h) as [|a|u]; [apply U_refl| |apply U_refl].
  unfold file_c. go. cbn [get run_call lift]. unfold f_x. destruct (mget (key c i) (f_entries (the_file s a))) as [e|]; apply U_refl.
Qed.
Lemma tor_in s h a : wf s -> the_tor s h = TFile a -> a < length (s_files s).
Proof.
  intros W E. unfold the_tor, tr_get_or_noop in E. destruct (mget (h_locale s h) _) as [x|] eqn:Em; [|discriminate]. subst x.
  apply (w_tors _ W _ _ _ Em).
Qed.
Lemma run_xn s h c i i2 n args (k : result -> gprog R) : wf s ->
  runs s (xn_c fmt h c i i2 n args k) (snd (h_xn64 fmt s h c i i2 n args))
    (k (match fst (h_xn64 fmt s h c i i2 n args) with XStr t => RText t | XPanic => RPanics end)).
Proof.
  intros W. unfold xn_c. eapply runs_trans; [apply run_tor|]. unfold h_xn64, tor_xn. destruct (the_tor s h) as [|a|u] eqn:E; [apply U_refl| |apply U_refl].
  eapply runs_trans; [apply run_file, (tor_in s h a W E)|]. destruct (f_xn64 fmt (the_file s a) c i i2 n args) as [r f]. apply U_refl.
Qed.
Lemma run_ref s own h k : runs s (with_ref own h k) s (k (target s own h)).
Proof. destruct h as [|a|i]; cbn [with_ref target]; [go|..]; apply U_refl. Qed.
End R.
Lemma run_one s own q a s' own' R (k : ans -> list nat -> gprog R) : wf s -> one fmt norm s own q = (a, s', own') ->
  runs s (run_rcall fmt norm own q k) s' (k a own').
Proof.
  intros W E. destruct q as [d| |c d|h dom|h l d|h dom|h l d|h l|h dom wm wp|h dom|h|h dom|h|h|h|h|h|h|h|[cv|]|h c i args|h c i i2 n args]; cbn [one run_rcall] in *.
  - injection E as <- <- <-. unfold new_c. do 2 go. apply U_refl.
  - eapply runs_trans; [apply run_global|]. destruct (g_clone s) as [r s1]. injection E as <- <- <-. apply U_refl.
  - eapply runs_trans; [apply run_with|]. destruct (with_context norm s c d) as [r s1]. injection E as <- <- <-. apply U_refl.
  - eapply runs_trans; [apply run_ref|]. eapply runs_trans; [apply run_D|]. destruct (h_D s (target s own h) dom) as [r s1]. injection E as <- <- <-. apply U_refl.
  - eapply runs_trans; [apply run_ref|]. eapply runs_trans; [apply run_L|]. destruct (h_L norm s (target s own h) l d) as [r s1]. injection E as <- <- <-. apply U_refl.
  - eapply runs_trans; [apply run_ref|]. injection E as <- <- <-. unfold set_domain_c. go. apply U_refl.
  - eapply runs_trans; [apply run_ref|]. injection E as <- <- <-. unfold set_locale_c. go. apply U_refl.
  - eapply runs_trans; [apply run_ref|]. injection E as <- <- <-. unfold set_source_c. go. apply U_refl.
  - eapply runs_trans; [apply run_ref|]. injection E as <- <- <-. unfold bind_c, bind_fs.
    destruct (new_translation s dom) as [t s1] eqn:E1. destruct (load_fs norm s1 t wm wp) as [b s2] eqn:E2.
    eapply U_step; [cbn [gstep]; rewrite E1, E2; reflexivity|]. destruct b; [|apply U_refl]. do 2 go. apply U_refl.
  - eapply runs_trans; [apply run_ref|]. eapply runs_trans; [apply run_remove|]. destruct (remove_domain s (target s own h) dom) as [b s1]. injection E as <- <- <-. apply U_refl.
  - eapply runs_trans; [apply run_ref|]. injection E as <- <- <-. apply run_clear.
  - eapply runs_trans; [apply run_ref|]. injection E as <- <- <-. unfold has_c. do 2 go. apply U_refl.
  - eapply runs_trans; [apply run_ref|]. injection E as <- <- <-. go. apply U_refl.
  - eapply runs_trans; [apply run_ref|]. injection E as <- <- <-. go. apply U_refl.
  - eapply runs_trans; [apply run_ref|]. injection E as <- <- <-. go. apply U_refl.
  - eapply runs_trans; [apply run_ref|]. injection E as <- <- <-. apply (run_used s _ (fun v => k (AText v) own)).
  - eapply runs_trans; [apply run_ref|]. injection E as <- <- <-. unfold domains_c. do 2 go. apply U_refl.
  - eapply runs_trans; [apply run_ref|]. injection E as <- <- <-. apply (run_locales s _ (fun so ls => k (ALangs so ls) own)).
  - eapply runs_trans; [apply (run_ref s own h (fun _ => _))|]. injection E as <- <- <-. go.
    eapply runs_trans; [eapply run_locales|]. do 2 go. apply U_refl.
  - injection E as <- <- <-. apply U_refl.
  - injection E as <- <- <-. go. apply (run_locales s _ (fun so ls => k (ALangs so ls) own)).
  - eapply runs_trans; [apply run_ref|]. injection E as <- <- <-. apply (run_x s _ c i args (fun r => k (ans_of r) own)).
  - eapply runs_trans; [apply run_ref|]. eapply runs_trans; [apply (run_xn s _ c i i2 n args (fun r => k (ans_of r) own) W)|].
    destruct (h_xn64 fmt s (target s own h) c i i2 n args) as [r s1]. injection E as <- <- <-. cbn [fst snd]. destruct r; apply U_refl.
Qed.
Lemma wf_xn s h c i i2 n args : wf s -> wf (snd (h_xn64 fmt s h c i i2 n args)).
Proof.
  intros W. unfold h_xn64, tor_xn. destruct (the_tor s h) as [|a|u]; [exact W| |exact W].
  destruct (f_xn64 fmt (the_file s a) c i i2 n args) as [r f]. apply wf_set_file, W.
Qed.
Lemma wf_one s own q a s' own' : wf s -> one fmt norm s own q = (a, s', own') -> wf s'.
Proof.
  intros W E. destruct q as [d| |c d|h dom|h l d|h dom|h l d|h l|h dom wm wp|h dom|h|h dom|h|h|h|h|h|h|h|[cv|]|h c i args|h c i i2 n args]; cbn [one] in E.
  - pose proof (wf_step norm fmt s (ONew d) W I) as H. cbn [do_op] in H. destruct (new_translations s d). injection E as _ <- _. exact H.
  - pose proof (wf_clone s (s_global s) W) as H. unfold g_clone in E. destruct (clone s (s_global s)). injection E as _ <- _. exact H.
  - pose proof (wf_with norm s c d W) as H. destruct (with_context norm s c d). injection E as _ <- _. exact H.
  - pose proof (wf_D s (target s own h) dom W) as H. destruct (h_D s (target s own h) dom). injection E as _ <- _. exact H.
  - pose proof (wf_L norm s (target s own h) l d W) as H. destruct (h_L norm s (target s own h) l d). injection E as _ <- _. exact H.
  - injection E as _ <- _. apply wf_set_domain, W.
  - injection E as _ <- _. apply wf_set_locale, W.
  - injection E as _ <- _. apply wf_set_ts; [exact W|reflexivity].
  - injection E as _ <- _. apply wf_bind, W.
  - pose proof (wf_remove s (target s own h) dom W) as H. destruct (remove_domain s (target s own h) dom). injection E as _ <- _. exact H.
  - injection E as _ <- _. apply wf_clear, W.
  - injection E as _ <- _. exact W.
  - injection E as _ <- _. exact W.
  - injection E as _ <- _. exact W.
  - injection E as _ <- _. exact W.
  - injection E as _ <- _. exact W.
  - injection E as _ <- _. exact W.
  - injection E as _ <- _. exact W.
  - injection E as _ <- _. exact W.
  - injection E as _ <- _. exact W.
  - injection E as _ <- _. exact W.
  - injection E as _ <- _. exact W.
  - pose proof (wf_xn s (target s own h) c i i2 n args W) as H. destruct (h_xn64 fmt s (target s own h) c i i2 n args). injection E as _ <- _. exact H.
Qed.
(** a request that runs alone gets the answers of the specification *)
Lemma run_alone qs : forall s own acc, wf s -> exists s', runs s (run_request fmt norm own acc qs) s' (GRet (acc ++ by_itself fmt norm s own qs)).
Proof.
  induction qs as [|q qs IH]; intros s own acc W; cbn [run_request by_itself].
  - exists s. rewrite app_nil_r. apply U_refl.
  - destruct (one fmt norm s own q) as [[a s1] own1] eqn:E. pose proof (wf_one _ _ _ _ _ _ W E) as W1.
    pose proof (fun k => run_one s own q a s1 own1 (list ans) k W E) as H.
    destruct a; try (match goal with H : forall k, runs _ _ _ (k ?a _) |- _ => destruct (IH s1 own1 (acc ++ [a]) W1) as (s2 & H2) end;
      exists s2; eapply runs_trans; [apply H|]; cbn beta iota; rewrite <- app_assoc in H2; exact H2).
    exists s1. eapply runs_trans; [apply H|]. apply U_refl.
Qed.

(** ** Requests that run at the same time *)
Lemma fine_alone s taken own qs r : wf s -> Forall (fun h => h < length (s_ts s)) taken -> NoDup own -> (forall h, In h own -> In h taken) ->
  fine norm s taken r (run_request fmt norm own [] qs) (start_heap s own) -> r = by_itself fmt norm s own qs.
Proof.
  intros W T N U F. destruct (run_alone qs s own [] W) as (s' & H). apply runs_steps in H.
  assert (G : all_fine norm s taken [r] s [run_request fmt norm own [] qs]).
  { split; [reflexivity|]. destruct (inv_start s taken [own] W T) as (ow & om & I); cbn [concat]; rewrite ?app_nil_r; auto.
    eexists _, ow, om. split; [exact I|].
    intros [|j] p r' E E'; cbn [nth_error] in *; [|destruct j; discriminate]. injection E as <-. injection E' as <-. exact F. }
  apply (all_fine_steps norm s taken [r] _ _ H) in G. cbn [fst snd] in G. destruct G as (_ & Lf & ow & om & _ & G).
  specialize (G 0 _ _ eq_refl eq_refl). cbn [fine app] in G. symmetry. exact G.
Qed.
Lemma NoDup_part (owns : list (list nat)) o : NoDup (concat owns) -> In o owns -> NoDup o.
Proof.
  induction owns as [|x owns IH]; intros N I; [destruct I|]. cbn [concat] in N. destruct I as [->|I].
  - clear IH. induction o as [|y o IH]; [constructor|]. cbn [app] in N. inversion N as [|? ? H N']; subst. constructor; [|apply IH, N'].
    intros Q. apply H, in_or_app. left. exact Q.
  - apply IH; [|exact I]. clear - N. induction x as [|y x IH]; [exact N|]. cbn [app] in N. inversion N; subst. apply IH. assumption.
Qed.
Definition answers_of (s : state) (g : list nat * list rcall) : list ans := by_itself fmt norm s (fst g) (snd g).
Lemma requests_fine s gs c : wf s -> calm s -> requests s gs ->
  gsteps norm (s, map (fun g => run_request fmt norm (fst g) [] (snd g)) gs) c ->
  all_fine norm s (concat (map fst gs)) (map (answers_of s) gs) (fst c) (snd c).
Proof.
  intros W C (N & T & P) St. apply (all_fine_steps norm s _ _ _ _ St). cbn [fst snd]. split; [rewrite !map_length; reflexivity|].
  destruct (inv_start s (concat (map fst gs)) (map fst gs) W T N (fun h H => H)) as (ow & om & I).
  eexists _, ow, om. split; [exact I|]. intros j p r E E'.
  destruct (nth_error gs j) as [[own qs]|] eqn:Eq; [|rewrite nth_error_map, Eq in E; discriminate].
  rewrite nth_error_map, Eq in E. rewrite nth_error_map, Eq in E'. injection E as <-. injection E' as <-.
  assert (Ig : In (own, qs) gs) by apply (nth_error_In _ _ Eq).
  assert (Pq : request s (concat (map fst gs)) own (length own) qs) by (rewrite Forall_forall in P; apply (P _ Ig)).
  assert (Io : In own (map fst gs)) by (apply (in_map fst) in Ig; exact Ig).
  assert (No : NoDup own) by apply (NoDup_part _ _ N Io).
  assert (Uo : forall h, In h own -> In h (concat (map fst gs))) by (intros h H; apply in_concat; exists own; auto).
  unfold heap_of. replace (nth j (map fst gs) []) with own by (symmetry; apply nth_error_nth; rewrite nth_error_map, Eq; reflexivity).
  cbn [fst snd]. unfold answers_of. cbn [fst snd].
  destruct (fine_request fmt norm s W C _ T own Uo qs (map (shared_view s) own) []) as (r & F); [rewrite map_length; lia|rewrite map_length; exact Pq|].
  specialize (F own _ (rel_start s W C _ T own Uo No)).
  rewrite <- (fine_alone s _ own qs r W T No Uo F). exact F.
Qed.
End Run.

(** ** A scheduler: the goroutine with number [i] makes a step *)
Fixpoint gsched {A R} (norm : bytes -> bytes) (is : list nat) (c : @state A * list (@gprog A R)) : option (@state A * list (@gprog A R)) :=
  match is with
  | [] => Some c
  | i :: is => match nth_error (snd c) i with
               | None => None
               | Some p => match gstep norm (fst c) p with
                           | None => None
                           | Some (s', p') => gsched norm is (s', firstn i (snd c) ++ p' :: skipn (S i) (snd c))
                           end
               end
  end.
Lemma gsched_steps {A R} norm is : forall (c0 c c' : @state A * list (@gprog A R)), gsteps norm c0 c -> gsched norm is c = Some c' -> gsteps norm c0 c'.
Proof.
  induction is as [|i is IH]; intros c0 c c' St E; cbn [gsched] in E; [injection E as <-; exact St|].
  destruct c as [s ps]. cbn [fst snd] in E. destruct (nth_error ps i) as [p|] eqn:Ei; [|discriminate].
  destruct (gstep norm s p) as [[s1 p1]|] eqn:Eg; [|discriminate]. refine (IH c0 _ c' _ E).
  apply (GS_step norm c0 s (firstn i ps) p (skipn (S i) ps) s1 p1); [|exact Eg].
  replace (firstn i ps ++ p :: skipn (S i) ps) with ps; [exact St|].
  clear - Ei. revert ps Ei. induction i as [|i IH]; intros [|q ps] Ei; cbn [nth_error firstn skipn app] in *; try discriminate; [congruence|].
  f_equal. apply IH, Ei.
Qed.
