(** The catalogs that handles reach are completely initialised: translating only
    reads. *)
From Coq Require Import Lia.
From Verif Require Import GoStr GoStrFacts GoMap GoMapFacts FileModel FileFacts PoModel PoReadFacts MoModel MoCatalogFacts
  TransModel TransSpec TransFacts.

(** ** Catalogs *)
Definition ready (f : file) : Prop := f_headers f <> None /\ f_plural f <> None.
(** nothing computed and no header entry; everything computed; or headers computed
    that name no language *)
Definition settled (f : file) : Prop :=
  (f_headers f = None /\ mget (key [] []) (f_entries f) = None) \/ ready f
  \/ exists h, f_headers f = Some h /\ or_empty (mget H_language h) = [].
Lemma settled_built f : built f -> settled f.
Proof. intros Bu. destruct (built_init f Bu) as [H|H]; [left; exact H|right; left; exact H]. Qed.
Lemma settled_lang f : settled f -> fst (lang f) <> [] -> ready f.
Proof.
  intros [[H1 H2]|[H|(h & H1 & H2)]] L; [|exact H|]; exfalso; apply L; unfold lang, get_header, init_header; rewrite H1; [rewrite H2; reflexivity|].
  cbn [fst]. rewrite H1. exact H2.
Qed.
Lemma ready_header f : ready f -> ready (init_header f).
Proof. intros H. unfold init_header. destruct (f_headers f) eqn:E; [exact H|]. destruct H as [H _]. congruence. Qed.
Lemma ready_plural f : ready f -> init_plural f = f.
Proof. intros [_ H]. unfold init_plural. destruct (f_plural f); [reflexivity|congruence]. Qed.
Lemma settled_header f : settled f -> settled (init_header f).
Proof.
  intros [[H1 H2]|[H|(h & H1 & H2)]].
  - right. right. unfold init_header. rewrite H1, H2. exists []. split; reflexivity.
  - right. left. apply ready_header, H.
  - right. right. exists h. unfold init_header. rewrite H1. split; assumption.
Qed.
Lemma settled_plural f : settled f -> settled (init_plural f).
Proof.
  intros K. unfold init_plural. destruct (f_plural f) eqn:Ep; [exact K|]. cbn [get_header].
  destruct K as [[H1 H2]|[H|(h & H1 & H2)]].
  - right. left. unfold init_header. rewrite H1. split; discriminate.
  - destruct H as [_ H]. congruence.
  - right. right. exists h. cbn [f_headers]. unfold init_header. rewrite H1. split; assumption.
Qed.
Lemma ready_add f e : ready f -> ready (add_entry f e).
Proof.
  intros [H1 H2]. unfold add_entry. destruct (is_header e); [|split; assumption].
  unfold init_header. cbn [f_headers]. destruct (f_headers f) as [h|] eqn:E; [|congruence]. unfold init_plural. cbn [f_plural].
  destruct (f_plural f) eqn:E2; [|congruence]. split; cbn [f_headers f_plural]; discriminate.
Qed.
Lemma settled_add f e : settled f -> settled (add_entry f e).
Proof.
  intros [H|[H|(h & H1 & H2)]]; [|right; left; apply ready_add, H|].
  - destruct (init_inv_add f e (or_introl H)) as [Q|Q]; [left; exact Q|right; left; exact Q].
  - unfold add_entry. destruct (is_header e); [|right; right; exists h; split; assumption].
    apply settled_plural, settled_header. right. right. exists h. split; assumption.
Qed.

Section Quiet.
Context {A : Type}.
Variable fmt : bytes -> list A -> bytes.
Variable norm : bytes -> bytes.
Notation state := (@state A).
Record calm (s : state) : Prop := {
  c_files : Forall settled (s_files s);
  c_tors : forall t l a, mget l (tr_langs (the_tr s t)) = Some (TFile a) -> a < length (s_files s) /\ ready (the_file s a) }.
Lemma calm_same s s' : s_trs s' = s_trs s -> s_files s' = s_files s -> calm s -> calm s'.
Proof. intros E1 E2 [C1 C2]. split; unfold the_tr, the_file in *; rewrite ?E1, ?E2; assumption. Qed.
Lemma Forall_upd {X} (P : X -> Prop) n x l : P x -> Forall P l -> Forall P (upd n x l).
Proof. intros Hx F. revert n. induction F as [|y l Hy F IH]; intros [|n]; cbn [upd]; constructor; auto. Qed.
Lemma settled_file s a : calm s -> settled (the_file s a).
Proof.
  intros [C _]. unfold the_file. destruct (Nat.lt_ge_cases a (length (s_files s))) as [L|L].
  - rewrite Forall_forall in C. apply C, nth_In, L.
  - rewrite nth_overflow by exact L. left. split; reflexivity.
Qed.
Lemma calm_set_file s a f : calm s -> settled f -> (ready (the_file s a) -> ready f) -> calm (set_file s a f).
Proof.
  intros [C1 C2] Sf R. split; [cbn [s_files set_file]; apply Forall_upd; assumption|].
  intros t l b H. destruct (C2 t l b H) as [L Rb]. unfold set_file. cbn [s_files]. rewrite upd_length. split; [exact L|].
  unfold the_file. cbn [s_files]. destruct (Nat.eq_dec b a) as [->|N]; [rewrite nth_upd_same by exact L; apply R, Rb|rewrite nth_upd_other by exact N; exact Rb].
Qed.
Lemma calm_new_f s f : calm s -> settled f -> calm (snd (new_f s f)).
Proof.
  intros [C1 C2] Sf. split; [cbn [new_f snd s_files]; apply Forall_app; split; [exact C1|constructor; [exact Sf|constructor]]|].
  intros t l b H. destruct (C2 t l b H) as [L Rb]. cbn [new_f snd s_files]. rewrite app_length. split; [lia|].
  unfold the_file. cbn [s_files]. rewrite nth_app_old by exact L. exact Rb.
Qed.
Lemma calm_new_tr s d : calm s -> calm (snd (new_translation s d)).
Proof.
  intros [C1 C2]. split; [exact C1|]. intros t l a H. unfold the_tr, new_translation, new_tr in H. cbn [snd s_trs] in H.
  destruct (Nat.lt_ge_cases t (length (s_trs s))) as [L|L].
  - rewrite nth_app_old in H by exact L. exact (C2 t l a H).
  - destruct (Nat.eq_dec t (length (s_trs s))) as [->|N]; [rewrite nth_new in H; discriminate|].
    rewrite nth_overflow in H by (rewrite app_length; cbn [length]; lia). discriminate.
Qed.
Lemma calm_set_tr s t r : calm s -> (forall l a, mget l (tr_langs r) = Some (TFile a) -> a < length (s_files s) /\ ready (the_file s a)) -> calm (set_tr s t r).
Proof.
  intros [C1 C2] H. split; [exact C1|]. intros x l a E. change (the_file (set_tr s t r) a) with (the_file s a). change (s_files (set_tr s t r)) with (s_files s).
  unfold the_tr, set_tr in E. cbn [s_trs] in E.
  destruct (Nat.eq_dec x t) as [->|N]; [|rewrite nth_upd_other in E by exact N; exact (C2 x l a E)].
  destruct (Nat.lt_ge_cases t (length (s_trs s))) as [L|L].
  - rewrite nth_upd_same in E by exact L. exact (H l a E).
  - rewrite nth_overflow in E by (rewrite upd_length; exact L). discriminate.
Qed.
Lemma calm_lang s x : calm s -> calm (snd (tor_lang s x)).
Proof.
  intros C. destruct x as [|a|u]; [exact C| |exact C]. unfold tor_lang. pose proof (lang_file (the_file s a)) as E.
  destruct (lang (the_file s a)) as [l f]. cbn [snd] in *. subst f. apply calm_set_file; [exact C|apply settled_header, settled_file, C|apply ready_header].
Qed.
Lemma calm_add s t x : calm s -> tor_known s x -> calm (snd (add_or_replace norm s t x)).
Proof.
  intros C K. pose proof (calm_lang s x C) as C'. pose proof (lang_known s x x K) as K'.
  assert (R : fst (tor_lang s x) <> [] -> forall a, x = TFile a -> ready (the_file (snd (tor_lang s x)) a)).
  { intros L a ->. unfold tor_lang in *. pose proof (lang_file (the_file s a)) as E. destruct (lang (the_file s a)) as [l f] eqn:El. cbn [fst snd] in *.
    subst f. unfold the_file, set_file. cbn [s_files]. rewrite nth_upd_same by exact K. apply ready_header, settled_lang; [apply settled_file, C|].
    change (fst (lang (the_file s a)) <> []). rewrite El. exact L. }
  unfold add_or_replace. destruct (tor_lang s x) as [l s']. cbn [fst snd] in *. destruct l as [|c l]; [exact C'|]. cbn [snd].
  apply calm_set_tr; [exact C'|]. intros k a H. cbn [tr_langs] in H. rewrite mget_put in H.
  destruct (beq k _); [injection H as ->; split; [exact K'|apply R; [discriminate|reflexivity]]|]. exact (c_tors s' C' _ _ _ H).
Qed.
Lemma calm_with_files s t cs : t < length (s_trs s) -> Forall built cs -> calm s -> calm (with_files norm s t cs).
Proof.
  intros Ht F. revert s Ht. induction F as [|f cs Bf F IH]; intros s Ht C; [rewrite with_files_nil; exact C|].
  change (f :: cs) with ([f] ++ cs). rewrite <- with_files_app by exact Ht.
  apply IH; [rewrite with_files_trs; exact Ht|]. rewrite <- add_file by exact Ht. apply calm_add.
  - apply calm_new_f; [exact C|apply settled_built, Bf].
  - cbn [tor_known new_f snd s_files]. rewrite app_length. cbn [length]. lia.
Qed.
Lemma built_catalogs ext w : Forall built (catalogs ext w).
Proof.
  unfold catalogs. induction (hits ext w) as [|x l IH]; [constructor|]. cbn [flat_map]. apply Forall_app. split; [|exact IH].
  unfold gives. destruct (ff_name x) as [n|]; [|constructor]. destruct (ff_content x) as [c|]; [|constructor].
  destruct (has_suffix (B ".po") n).
  - destruct (read_po c) as [f| | |] eqn:E; constructor; [|constructor]. exact (read_built _ _ _ E).
  - destruct (has_suffix (B ".mo") n); [|constructor]. destruct (read_mo c) as [f| |] eqn:E; constructor; [|constructor]. exact (read_mo_built _ _ E).
Qed.
Lemma calm_init d : calm (init d).
Proof.
  split; [constructor|]. intros t l a. unfold the_tr, init. cbn [s_trs]. destruct t as [|[|t]]; discriminate.
Qed.
Lemma clone_parts (s : state) h : s_trs (snd (clone s h)) = s_trs s /\ s_files (snd (clone s h)) = s_files s.
Proof. split; reflexivity. Qed.
Lemma with_parts (s : state) c d : s_trs (snd (with_context norm s c d)) = s_trs s /\ s_files (snd (with_context norm s c d)) = s_files s.
Proof.
  unfold with_context, g_clone. destruct (clone s (s_global s)) as [h1 s1] eqn:E.
  destruct (clone_parts s (s_global s)) as [P1 P2]. rewrite E in P1, P2. cbn [snd] in P1, P2. rewrite <- P1, <- P2.
  destruct (get_ctx_locale c), (get_ctx_domain c); split; reflexivity.
Qed.
(** the catalogs a program makes itself come from ReadPo, ReadMo or AddEntry *)
Definition makes_built (o : @op A) : Prop := match o with ONewFile f => built f | _ => True end.
Lemma xn_calm s a c i i2 n args : calm s -> calm (set_file s a (snd (f_xn64 fmt (the_file s a) c i i2 n args))).
Proof.
  intros C. destruct (xn_file fmt (the_file s a) c i i2 n args) as [E|E]; rewrite E.
  - apply calm_set_file; [exact C|apply settled_file, C|auto].
  - apply calm_set_file; [exact C|apply settled_plural, settled_file, C|]. intros R. rewrite ready_plural; exact R.
Qed.
Theorem calm_step s o : calm s -> known s o -> makes_built o -> calm (do_op fmt norm s o).
Proof.
  intros C K M. destruct o; cbn [TransModel.do_op known makes_built] in *;
    try (apply (calm_same s); [reflexivity|reflexivity|exact C]).
  - destruct (with_parts s c d). apply (calm_same s); assumption.
  - rewrite bind_fs_spec. cbn zeta. set (cs := catalogs _ wm ++ _). set (s1 := snd (new_translation s domain)).
    assert (C' : calm (with_files norm s1 (length (s_trs s)) cs)).
    { apply calm_with_files; [unfold s1, new_translation, new_tr; cbn [snd s_trs]; rewrite app_length; cbn [length]; lia| |apply calm_new_tr, C].
      apply Forall_app. split; apply built_catalogs. }
    destruct (existsb okb _); [|exact C']. apply (calm_same (with_files norm s1 (length (s_trs s)) cs)); [reflexivity|reflexivity|exact C'].
  - unfold remove_domain. destruct domain; [exact C|]. destruct (negb _); [exact C|]. cbn [snd].
    destruct (beq _ _); apply (calm_same s); try reflexivity; exact C.
  - unfold h_xn64, tor_xn. destruct (the_tor s h) as [|a|u]; [exact C| |exact C].
    pose proof (xn_calm s a c i i2 n args C) as Q. destruct (f_xn64 fmt (the_file s a) c i i2 n args). exact Q.
  - apply calm_new_tr, C.
  - apply calm_add; [exact C|apply K].
  - rewrite load_po_spec by exact K. destruct (read_po content) as [f| | |] eqn:E; try exact C.
    apply calm_with_files; [exact K|constructor; [exact (read_built _ _ _ E)|constructor]|exact C].
  - rewrite load_mo_spec by exact K. destruct (read_mo content) as [f| |] eqn:E; try exact C.
    apply calm_with_files; [exact K|constructor; [exact (read_mo_built _ _ E)|constructor]|exact C].
  - rewrite load_fs_spec by exact K. apply calm_with_files; [exact K|apply Forall_app; split; apply built_catalogs|exact C].
  - apply calm_new_f; [exact C|apply settled_built, M].
  - apply calm_set_file; [exact C|apply settled_add, settled_file, C|apply ready_add].
Qed.
Lemma calm_tor s h a : calm s -> the_tor s h = TFile a -> ready (the_file s a).
Proof.
  intros C E. unfold the_tor, tr_get_or_noop in E. destruct (mget _ _) as [x|] eqn:Em; [|discriminate]. subst x.
  apply (c_tors s C _ _ _ Em).
Qed.
Lemma calm_xn s h c i i2 n args : calm s -> snd (h_xn64 fmt s h c i i2 n args) = s.
Proof.
  intros C. unfold h_xn64, tor_xn. destruct (the_tor s h) as [|a|u] eqn:E; [reflexivity| |reflexivity].
  pose proof (calm_tor s h a C E) as R. assert (Q : snd (f_xn64 fmt (the_file s a) c i i2 n args) = the_file s a).
  { destruct (xn_file fmt (the_file s a) c i i2 n args) as [Q|Q]; rewrite Q; [reflexivity|apply ready_plural, R]. }
  destruct (f_xn64 fmt (the_file s a) c i i2 n args) as [r f]. cbn [snd] in *. subst f. unfold set_file, the_file.
  rewrite upd_same. destruct s; reflexivity.
Qed.
End Quiet.
