(** Facts about calls on nil pointers. *)
From Coq Require Import Lia Arith.
From Verif Require Import GoStr GoStrFacts GoMap GoMapFacts FileModel FileFacts PoModel MoModel TransModel TransSpec TransFacts TransFrameFacts
  TransViewFacts TransQuietFacts ConcModel ConcSpec ConcFacts HandleConcModel HandleConcSpec HandleConcFacts HandleRunFacts GlobalModel NilModel NilSpec.
Local Open Scope nat_scope.

Section Facts.
Context {A : Type}.
Variable fmt : bytes -> list A -> bytes.
Variable norm : bytes -> bytes.
Variable z : nat.
Notation state := (@state A).
Implicit Types s : state.
Notation exec := (exec norm z).

Lemma exec_rd {R} s x (k : holds x -> @gprog A R) : exec s (Rd x k) = if of_nil z x then (s, None) else exec s (k (get s x)).
Proof. reflexivity. Qed.
Lemma exec_wr {R} s x f (k : @gprog A R) : exec s (Wr x f k) = if of_nil z x then (s, None) else exec (put s x (f (get s x))) k.
Proof. reflexivity. Qed.
Section R.
Context {R : Type}.
Implicit Types k : nat -> @gprog A R.
(** what a program that needs [h] does *)
Definition guard s (h : nat) (r : state * option R) : state * option R := if h =? z then (s, None) else r.
Lemma guard_same s h r r' : (h <> z -> r = r') -> guard s h r = guard s h r'.
Proof. unfold guard. destruct (Nat.eqb_spec h z); [reflexivity|auto]. Qed.
Ltac rd := rewrite exec_rd; cbn [of_nil get].
Ltac wr := rewrite exec_wr; cbn [of_nil get].
Ltac miss H := let Q := fresh in assert (Q := proj2 (Nat.eqb_neq _ _) H); rewrite ?Q.

Lemma exec_clone s h k : exec s (clone_c h k) = guard s h (exec (snd (clone s h)) (k (fst (clone s h)))).
Proof.
  unfold clone_c. rd. unfold guard. destruct (h =? z) eqn:E; [reflexivity|]. do 3 (rd; rewrite ?E).
  cbn [NilModel.exec new_map of_nil]. rewrite E. reflexivity.
Qed.
Lemma exec_set_domain s h dom (p : @gprog A R) : exec s (set_domain_c h dom p) = guard s h (exec (set_domain s h dom) p).
Proof. reflexivity. Qed.
Lemma exec_set_locale s h l d (p : @gprog A R) : exec s (set_locale_c norm h l d p) = guard s h (exec (set_locale norm s h l d) p).
Proof. reflexivity. Qed.
Lemma exec_set_source s h l (p : @gprog A R) : exec s (set_source_c norm h l p) = guard s h (exec (set_source norm s h l) p).
Proof. reflexivity. Qed.
Lemma guard_other s h r : h <> z -> guard s h r = r.
Proof. intros H. unfold guard. apply Nat.eqb_neq in H. rewrite H. reflexivity. Qed.
Lemma exec_D s h dom k : z < length (s_ts s) -> exec s (D_c h dom k) = guard s h (exec (snd (h_D s h dom)) (k (fst (h_D s h dom)))).
Proof.
  intros L. unfold D_c. rewrite exec_clone. apply guard_same. intros _. rewrite exec_set_domain, guard_other; [reflexivity|].
  rewrite (clone_fst s h). lia.
Qed.
Lemma exec_L s h l d k : z < length (s_ts s) ->
  exec s (L_c norm h l d k) = guard s h (exec (snd (h_L norm s h l d)) (k (fst (h_L norm s h l d)))).
Proof.
  intros L. unfold L_c. rewrite exec_clone. apply guard_same. intros _. rewrite exec_set_locale, guard_other; [reflexivity|].
  rewrite (clone_fst s h). lia.
Qed.
Lemma exec_global s k : exec s (global_c k) = guard s (s_global s) (exec (snd (g_clone s)) (k (fst (g_clone s)))).
Proof. unfold global_c. rd. apply exec_clone. Qed.
Lemma exec_with s c d k : z < length (s_ts s) ->
  exec s (with_context_c norm c d k)
  = guard s (s_global s) (exec (snd (with_context norm s c d)) (k (fst (with_context norm s c d)))).
Proof.
  intros L. unfold with_context_c. rewrite exec_global. apply guard_same. intros _. cbv zeta. unfold with_context.
  pose proof (clone_fst s (s_global s)) as F. pose proof (clone_len s (s_global s)) as N. change (clone s (s_global s)) with (g_clone s) in *.
  destruct (g_clone s) as [h s1]. cbn [fst snd] in *. destruct (get_ctx_locale c) as [l|].
  - rewrite exec_L, guard_other by lia. pose proof (L_fst norm s1 h l d) as F2. pose proof (L_len fmt norm s1 h l d) as N2.
    destruct (h_L norm s1 h l d) as [h2 s2]. cbn [fst snd] in *. destruct (get_ctx_domain c) as [dom|]; [|reflexivity].
    rewrite exec_D, guard_other by lia. reflexivity.
  - destruct (get_ctx_domain c) as [dom|]; [|reflexivity]. rewrite exec_D, guard_other by lia. reflexivity.
Qed.
Lemma exec_bind s h dom wm wp (p : @gprog A R) : exec s (bind_c h dom wm wp p)
  = if existsb okb (hits (B ".mo") wm ++ hits (B ".po") wp)
    then guard (with_files norm (snd (new_translation s dom)) (length (s_trs s)) (catalogs (B ".mo") wm ++ catalogs (B ".po") wp)) h
           (exec (bind_fs norm s h dom wm wp) p)
    else exec (bind_fs norm s h dom wm wp) p.
Proof.
  unfold bind_c. cbn [NilModel.exec]. rewrite bind_fs_spec. cbv zeta. change (new_translation s dom) with (length (s_trs s), snd (new_translation s dom)).
  cbv iota beta. rewrite load_fs_spec by (cbn [new_translation new_tr snd s_trs]; rewrite app_length; cbn [length]; lia).
  cbv iota beta. destruct (existsb okb _); [|reflexivity]. cbn [NilModel.exec of_nil get put]. reflexivity.
Qed.
Lemma exec_has s h dom (k : bool -> @gprog A R) : exec s (has_c h dom k) = guard s h (exec s (k (has_domain s h dom))).
Proof. reflexivity. Qed.
Lemma exec_remove s h dom (k : bool -> @gprog A R) : exec s (remove_c h dom k)
  = match dom with
    | [] => exec s (k false)
    | _ => guard s h (exec (snd (remove_domain s h dom)) (k (fst (remove_domain s h dom))))
    end.
Proof.
  destruct dom as [|c dom]; [reflexivity|]. unfold remove_c, remove_domain. rewrite exec_has. unfold guard.
  destruct (h =? z) eqn:E; [reflexivity|]. destruct (has_domain s h (c :: dom)); cbn [negb]; [|reflexivity].
  rd. rewrite E. wr. rd. rewrite E. cbn [fst snd]. change (t_domain (the_ts ?s h)) with (h_domain s h). cbn [put].
  destruct (beq (h_domain _ h) (c :: dom)); [|reflexivity]. wr. rewrite E. reflexivity.
Qed.
Lemma exec_clear s h (p : @gprog A R) : exec s (clear_c h p) = guard (snd (new_map s [])) h (exec (clear_domains s h) p).
Proof.
  unfold clear_c. cbn [NilModel.exec new_map of_nil]. unfold guard. destruct (h =? z) eqn:E; [reflexivity|]. f_equal.
  cbn [put get]. set (s1 := snd (new_map s [])).
  change {| s_ts := s_ts s; s_maps := s_maps s ++ [[]]; s_trs := s_trs s; s_files := s_files s; s_global := s_global s |} with s1.
  unfold clear_domains. change (new_map s []) with (length (s_maps s), s1). cbv iota beta.
  destruct (Nat.lt_ge_cases h (length (s_ts s1))) as [L|L].
  - rewrite set_ts_ts. rewrite the_ts_set by exact L. rewrite Nat.eqb_refl. reflexivity.
  - rewrite !(set_ts_out s1) by exact L. reflexivity.
Qed.
Lemma exec_get s h dom (k : option nat -> @gprog A R) : exec s (get_c h dom k) = guard s h (exec s (k (h_get s h dom))).
Proof. reflexivity. Qed.
Lemma exec_used s h (k : bytes -> @gprog A R) : exec s (used_c h k) = guard s h (exec s (k (used_locale s h))).
Proof.
  unfold used_c. rd. unfold guard. destruct (h =? z) eqn:E; [reflexivity|]. rewrite exec_get. unfold guard. rewrite E.
  unfold used_locale. change (t_domain (the_ts s h)) with (h_domain s h). destruct (h_get s h (h_domain s h)) as [t|]; [|rd; rewrite E; reflexivity].
  rd. rewrite E. rd. unfold tr_get. change (t_locale (the_ts s h)) with (h_locale s h).
  destruct (mget (h_locale s h) (tr_langs (the_tr s t))); rd; rewrite E; reflexivity.
Qed.
Lemma exec_tor s h (k : tor -> @gprog A R) : exec s (tor_c h k) = guard s h (exec s (k (the_tor s h))).
Proof.
  unfold tor_c. rd. unfold guard. destruct (h =? z) eqn:E; [reflexivity|]. rewrite exec_get. unfold guard. rewrite E. cbv zeta.
  rd. rewrite E. rd. reflexivity.
Qed.
Lemma exec_locales s h (k : bytes -> list bytes -> @gprog A R) : exec s (locales_c h k) = guard s h (exec s (k (h_source s h) (langs_of s h))).
Proof.
  unfold locales_c. rd. unfold guard. destruct (h =? z) eqn:E; [reflexivity|]. rewrite exec_get. unfold guard. rewrite E. cbv zeta.
  rd. rewrite E. rd. reflexivity.
Qed.
(** the methods of a catalog touch no handle *)
Lemma exec_header s a T (p : prog T) (k : T -> @gprog A R) (q : prog T) : a < length (s_files s) ->
  q = ReadHeaders (fun h => match h with Some _ => p | None =>
    WriteHeaders (match mget (key [] []) (f_entries (the_file s a)) with Some e => parse_headers (e_str e) | None => [] end) p end) ->
  exec s (lift a q k) = exec (set_file s a (init_header (the_file s a))) (lift a p k).
Proof.
  intros L ->. cbn [lift]. rd. unfold init_header. destruct (f_headers (the_file s a)) as [h|] eqn:E.
  - rewrite set_file_same. reflexivity.
  - cbn [lift]. wr. reflexivity.
Qed.
Lemma exec_plural s a (g : option plural -> prog result) (k : result -> @gprog A R) : a < length (s_files s) ->
  exec s (lift a (get_plural_c (f_entries (the_file s a)) g) k)
  = exec (set_file s a (init_plural (the_file s a))) (lift a (g (f_plural (init_plural (the_file s a)))) k).
Proof.
  intros L. unfold get_plural_c, init_plural_c. cbn [lift]. rd. unfold init_plural. destruct (f_plural (the_file s a)) as [p|] eqn:E.
  - cbn [lift]. rd. rewrite set_file_same, E. reflexivity.
  - unfold get_header_c. erewrite (exec_header s a result); [|exact L|reflexivity].
    cbn [lift]. rd. wr. rd. cbn [put]. cbn [get_header]. rewrite !the_file_set by exact L.
    rewrite set_file_file. rewrite !the_file_set by exact L. reflexivity.
Qed.
Lemma exec_xn_file s a c i i2 n args (k : result -> @gprog A R) : a < length (s_files s) ->
  exec s (file_c fmt a (CXN c i i2 n args) k)
  = exec (set_file s a (snd (f_xn64 fmt (the_file s a) c i i2 n args)))
      (k (match fst (f_xn64 fmt (the_file s a) c i i2 n args) with XStr t => RText t | XPanic => RPanics end)).
Proof.
  intros L. unfold file_c. rd. cbn [run_call]. unfold f_xn64.
  destruct (mget (key c i) (f_entries (the_file s a))) as [e|]; [|cbn [lift fst snd]; rewrite set_file_same; reflexivity].
  destruct (is_empty (e_id2 e) && match e_strn e with [] => true | _ :: _ => false end).
  { cbn [lift fst snd]. rewrite set_file_same. reflexivity. }
  rewrite exec_plural by exact L. destruct (f_plural (init_plural (the_file s a))) as [p|]; [|reflexivity].
  destruct (p_total p <=? 0)%Z; [reflexivity|].
  cbv zeta. match goal with |- context [if ?b then _ else _] => destruct b end; [reflexivity|].
  destruct (nth_error (e_strn e) (Z.to_nat (plural_fn p n))) as [t|]; [|reflexivity].
  destruct (is_empty t); reflexivity.
Qed.
Lemma exec_x s h c i args (k : result -> @gprog A R) : exec s (x_c fmt h c i args k) = guard s h (exec s (k (RText (h_x fmt s h c i args)))).
Proof.
  unfold x_c. rewrite exec_tor. apply guard_same. intros _. unfold h_x, tor_x. destruct (the_tor s h) as [|a|u]; try reflexivity.
Qed.
Lemma exec_xn s h c i i2 n args (k : result -> @gprog A R) : wf s ->
  exec s (xn_c fmt h c i i2 n args k)
  = guard s h (exec (snd (h_xn64 fmt s h c i i2 n args)) (k (match fst (h_xn64 fmt s h c i i2 n args) with XStr t => RText t | XPanic => RPanics end))).
Proof.
  intros W. unfold xn_c. rewrite exec_tor. apply guard_same. intros _. unfold h_xn64, tor_xn. destruct (the_tor s h) as [|a|u] eqn:E; try reflexivity.
  rewrite exec_xn_file by apply (tor_in s h a W E). destruct (f_xn64 fmt (the_file s a) c i i2 n args) as [r f]. reflexivity.
Qed.
Lemma exec_ref s own h k : exec s (with_ref own h k) = exec s (k (target s own h)).
Proof. destruct h; reflexivity. Qed.
End R.

(** what a call that panics leaves behind: garbage *)
Definition quiet s s1 : Prop := wf s1 /\ s_global s1 = s_global s /\ s_ts s1 = s_ts s /\ forall h, h < length (s_ts s) -> frame s s1 h.
Lemma quiet_refl s : wf s -> quiet s s.
Proof. intros W. split; [exact W|]. split; [reflexivity|]. split; [reflexivity|]. intros h H. split; [apply same_handle_refl, H|apply keeps_refl]. Qed.
Lemma quiet_trans s1 s2 s3 : quiet s1 s2 -> quiet s2 s3 -> quiet s1 s3.
Proof.
  intros (W1 & G1 & T1 & F1) (W2 & G2 & T2 & F2). split; [exact W2|]. split; [congruence|]. split; [congruence|]. intros h H.
  eapply frame_trans; [apply F1, H|apply F2]. rewrite T1. exact H.
Qed.
Lemma quiet_map s g : wf s -> NoDup (keys g) -> (forall d t, mget d g = Some t -> t <> tr_noop /\ t < length (s_trs s)) -> quiet s (snd (new_map s g)).
Proof.
  intros W N T. assert (O : forall h, h < length (s_ts s) -> the_map (snd (new_map s g)) (t_map (the_ts s h)) = the_map s (t_map (the_ts s h))).
  { intros h H. unfold the_map. cbn [new_map snd s_maps]. apply nth_app_old, (w_maps s W), H. }
  assert (M : forall m, the_map (snd (new_map s g)) m = the_map s m \/ the_map (snd (new_map s g)) m = g).
  { intros m. unfold the_map. cbn [new_map snd s_maps]. destruct (Nat.lt_trichotomy m (length (s_maps s))) as [L|[->|L]].
    - left. apply nth_app_old, L.
    - right. apply nth_new.
    - left. rewrite !nth_overflow; [reflexivity|lia|rewrite app_length; cbn [length]; lia]. }
  split; [|split; [reflexivity|split; [reflexivity|]]].
  - split.
    + intros h H. cbn [new_map snd s_maps] in *. rewrite app_length. pose proof (w_maps s W h H) as Q. unfold the_ts in *. cbn [s_ts]. lia.
    + intros Eo h h' H H' E. apply (w_own_ s W Eo h h' H H' E).
    + intros m d t E. destruct (M m) as [Q|Q]; rewrite Q in E; [apply (w_trs s W _ _ _ E)|apply (T _ _ E)].
    + exact (w_noop s W).
    + intros m. destruct (M m) as [Q|Q]; rewrite Q; [apply (w_nodup s W)|exact N].
    + intros t l x E. exact (w_tors s W t l x E).
    + exact (w_global s W).
  - intros h H. split; [|split; auto; intros; apply same_file_refl]. split; auto. unfold h_domains. symmetry. apply (O h H).
Qed.
(** loading something that is not bound *)
Lemma quiet_files s dom wm wp : wf s ->
  quiet s (with_files norm (snd (new_translation s dom)) (length (s_trs s)) (catalogs (B ".mo") wm ++ catalogs (B ".po") wp)).
Proof.
  intros W. set (cs := catalogs _ wm ++ _). set (s1 := snd (new_translation s dom)).
  assert (L : length (s_trs s) < length (s_trs s1)) by (cbn; rewrite app_length; cbn [length]; lia).
  split; [apply wf_with_files; [apply (wf_new_tr norm), W|exact L]|]. split; [reflexivity|]. split; [reflexivity|]. intros h H. split; [split; auto|]. split.
  - intros x Hx. rewrite with_files_old by lia. unfold the_tr, s1, new_translation, new_tr. cbn [snd s_trs]. apply nth_app_old, Hx.
  - rewrite with_files_trs. lia.
  - intros a Ha. rewrite with_files_files; [apply same_file_refl|exact Ha].
  - cbn. rewrite app_length. lia.
Qed.
Ltac nil_case E :=
  match goal with |- context [guard _ ?a _] =>
    unfold guard; let Q := fresh "Q" in destruct (Nat.eqb_spec a z) as [Q|Q] end;
  [ split; [intros _; eexists; split; [reflexivity|]|
            intros N; exfalso; apply N; split; [eexists; split; [reflexivity|]; assumption|cbn [spared]; auto]]
  | split; [intros [(? & E & ?) _]; injection E as <-; contradiction|intros _] ].
Lemma exec_ncall s own q : wf s -> z < length (s_ts s) ->
  (npanics z s own q -> exists s1, exec s (run_ncall fmt norm own q) = (s1, None) /\ quiet s s1)
  /\ (~ npanics z s own q -> exec s (run_ncall fmt norm own q) = (fst (done fmt norm s own q), Some (snd (done fmt norm s own q)))).
Proof.
  intros W Lz. assert (Qr : quiet s s) by (apply quiet_refl, W).
  destruct q as [q|h|h dom|h dom|wm wp].
  - destruct q as [d| |c d|h dom|h l d|h dom|h l d|h l|h dom wm wp|h dom|h|h dom|h|h|h|h|h|h|h|[cv|]|h c i args|h c i i2 n args]; cbn [run_ncall run_rcall done one].
    + split; [intros [(h & E & _) _]; discriminate|]. reflexivity.
    + rewrite exec_global. nil_case E; [exact Qr|]. destruct (g_clone s); reflexivity.
    + rewrite exec_with by exact Lz. nil_case E; [exact Qr|]. destruct (with_context norm s c d); reflexivity.
    + rewrite exec_ref, exec_D by exact Lz. nil_case E; [exact Qr|]. destruct (h_D s (target s own h) dom); reflexivity.
    + rewrite exec_ref, exec_L by exact Lz. nil_case E; [exact Qr|]. destruct (h_L norm s (target s own h) l d); reflexivity.
    + rewrite exec_ref, exec_set_domain. nil_case E; [exact Qr|reflexivity].
    + rewrite exec_ref, exec_set_locale. nil_case E; [exact Qr|reflexivity].
    + rewrite exec_ref, exec_set_source. nil_case E; [exact Qr|reflexivity].
    + rewrite exec_ref, exec_bind. destruct (existsb okb _) eqn:Eo.
      * nil_case E; [apply quiet_files, W| |reflexivity]. intros Sp. apply Sp. apply some_loaded_iff, Eo.
      * split; [|reflexivity]. intros [_ Sp]. exfalso. apply Sp. cbn [spared]. rewrite <- some_loaded_iff, Eo. discriminate.
    + rewrite exec_ref, exec_remove. destruct dom as [|ch dom].
      * split; [intros [_ Sp]; exfalso; apply Sp; exact I|reflexivity].
      * nil_case E; [exact Qr|]. destruct (remove_domain s (target s own h) (ch :: dom)); reflexivity.
    + rewrite exec_ref, exec_clear. nil_case E; [|reflexivity]. apply quiet_map; [exact W|constructor|discriminate].
    + rewrite exec_ref, exec_has. nil_case E; [exact Qr|reflexivity].
    + rewrite exec_ref. change (NilModel.exec norm z s _) with (guard s (target s own h) (s, Some (NA (AText (h_domain s (target s own h))), own))).
      nil_case E; [exact Qr|reflexivity].
    + rewrite exec_ref. change (NilModel.exec norm z s _) with (guard s (target s own h) (s, Some (NA (AText (h_locale s (target s own h))), own))).
      nil_case E; [exact Qr|reflexivity].
    + rewrite exec_ref. change (NilModel.exec norm z s _) with (guard s (target s own h) (s, Some (NA (AText (h_source s (target s own h))), own))).
      nil_case E; [exact Qr|reflexivity].
    + rewrite exec_ref, exec_used. nil_case E; [exact Qr|reflexivity].
    + rewrite exec_ref. change (NilModel.exec norm z s _) with (guard s (target s own h) (s, Some (NA (ANames (keys (h_domains s (target s own h)))), own))).
      nil_case E; [exact Qr|reflexivity].
    + rewrite exec_ref, exec_locales. nil_case E; [exact Qr|reflexivity].
    + rewrite (exec_ref s own h (fun _ => _)). rewrite exec_rd. cbn [of_nil get]. rewrite exec_locales. nil_case E; [exact Qr|].
      rewrite !exec_rd. cbn [of_nil get]. apply Nat.eqb_neq in Q. rewrite Q. reflexivity.
    + split; [intros [_ Sp]; exfalso; apply Sp; exact I|reflexivity].
    + rewrite exec_rd. cbn [of_nil get]. rewrite exec_locales. nil_case E; [exact Qr|reflexivity].
    + rewrite exec_ref, exec_x. nil_case E; [exact Qr|reflexivity].
    + rewrite exec_ref, exec_xn by exact W. nil_case E; [exact Qr|]. destruct (h_xn64 fmt s (target s own h) c i i2 n args) as [[t|] s1]; reflexivity.
  - cbn [run_ncall done]. rewrite exec_ref. split; [intros [(x & E & _) _]; discriminate|reflexivity].
  - cbn [run_ncall done]. rewrite exec_ref, exec_get. nil_case E; [exact Qr|reflexivity].
  - cbn [run_ncall done]. rewrite exec_ref, exec_get. nil_case E; [exact Qr|reflexivity].
  - cbn [run_ncall done].
    change (NilModel.exec norm z s _) with (guard s (s_global s) (exec s (bind_c (s_global s) (g_domain s) wm wp (GRet (NA ANone, own))))).
    nil_case E; [exact Qr|]. rewrite exec_bind. unfold guard, g_load, g_bind. apply Nat.eqb_neq in Q. rewrite Q. destruct (existsb okb _); reflexivity.
Qed.
End Facts.
