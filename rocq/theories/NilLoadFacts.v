(** Facts about nil translations and about sequences of calls. *)
From Coq Require Import Lia Arith.
From Verif Require Import GoStr GoStrFacts GoMap GoMapFacts FileModel FileFacts PoModel MoModel TransModel TransSpec TransFacts TransFrameFacts
  TransViewFacts HandleConcModel HandleConcSpec GlobalModel NilModel NilSpec NilFacts.
Local Open Scope nat_scope.

Section Facts.
Context {A : Type}.
Variable fmt : bytes -> list A -> bytes.
Variable norm : bytes -> bytes.
Notation state := (@state A).
Implicit Types s : state.

(** ** A translation that is not nil *)
Lemma add_some s t x : add_n norm s (Some t) (Some x) = NOk (fst (add_or_replace norm s t x)) (snd (add_or_replace norm s t x)).
Proof. unfold add_n, add_or_replace. destruct (tor_lang s x) as [l s1]. destruct l; reflexivity. Qed.
Definition ok_of {X} (p : X * state) : @nres A X := NOk (fst p) (snd p).
Lemma po_some s t c : load_po_n norm s (Some t) c = ok_of (load_po norm s t c).
Proof. unfold load_po_n, load_po. destruct (read_po c) as [f| | |]; try reflexivity. destruct (new_f s f) as [a s1]. rewrite add_some. reflexivity. Qed.
Lemma mo_some s t c : load_mo_n norm s (Some t) c = ok_of (load_mo norm s t c).
Proof. unfold load_mo_n, load_mo. destruct (read_mo c) as [f| |]; try reflexivity. destruct (new_f s f) as [a s1]. rewrite add_some. reflexivity. Qed.
Lemma file_some s t f : load_file_n norm s (Some t) f = ok_of (load_file norm s t f).
Proof.
  unfold load_file_n, load_file. destruct (ff_name f) as [n|]; [|reflexivity]. destruct (ff_content f) as [c|]; [|reflexivity].
  destruct (has_suffix ext_po n); [apply po_some|]. destruct (has_suffix ext_mo n); [apply mo_some|reflexivity].
Qed.
Lemma walk_some ext t : forall w s l, walk_n norm ext s (Some t) l w = ok_of (walk norm ext s t l w).
Proof.
  induction w as [|[|dir name [f|]] w IH]; intros s l; cbn [walk_n walk]; try reflexivity.
  - destruct (negb dir && has_suffix ext name); [|apply IH]. rewrite file_some. destruct (load_file norm s t f) as [ok s1]. cbn [ok_of fst snd]. apply IH.
  - destruct (negb dir && has_suffix ext name); apply IH.
Qed.
Lemma fs_some s t wm wp : load_fs_n norm s (Some t) wm wp = ok_of (load_fs norm s t wm wp).
Proof. unfold load_fs_n, load_fs. rewrite walk_some. destruct (walk norm ext_mo s t false wm) as [l s1]. cbn [ok_of fst snd]. apply walk_some. Qed.

(** ** A nil translation *)
(** files that nobody knows *)
Definition plus s (cs : list file) : state :=
  {| s_ts := s_ts s; s_maps := s_maps s; s_trs := s_trs s; s_files := s_files s ++ map init_header cs; s_global := s_global s |}.
Lemma plus_nil s : plus s [] = s.
Proof. unfold plus. cbn [map]. rewrite app_nil_r. destruct s; reflexivity. Qed.
Lemma plus_plus s a b : plus (plus s a) b = plus s (a ++ b).
Proof. unfold plus. cbn [s_ts s_maps s_trs s_files s_global]. rewrite <- app_assoc, map_app. reflexivity. Qed.
Definition mute (f : file) : Prop := fst (lang f) = [].
Lemma add_file_nil s f : let (a, s1) := new_f s f in
  added (add_n norm s1 None (Some (TFile a))) = match fst (lang f) with [] => NOk true (plus s [f]) | _ => NPanic (plus s [f]) end.
Proof.
  unfold new_f, add_n, tor_lang, the_file. cbn [s_files]. rewrite nth_new. destruct (lang f) as [l f'] eqn:E.
  assert (Ef : f' = init_header f) by (rewrite <- (lang_file f), E; reflexivity). subst f'. cbn [fst].
  unfold set_file. cbn [s_files s_ts s_maps s_trs s_global]. rewrite upd_last. destruct l; reflexivity.
Qed.
(** what a load with catalogs [cs], successful if [b], does *)
Definition nil_load s (cs : list file) (b : bool) (r : @nres A bool) : Prop :=
  (Forall mute cs /\ r = NOk b (plus s cs)) \/ (exists cs', r = NPanic (plus s cs')) /\ ~ Forall mute cs.
Lemma po_nil s c : nil_load s (match read_po c with PoOk f => [f] | _ => [] end) (match read_po c with PoOk _ => true | _ => false end) (load_po_n norm s None c).
Proof.
  unfold load_po_n. destruct (read_po c) as [f| | |]; try (left; rewrite plus_nil; split; [constructor|reflexivity]).
  pose proof (add_file_nil s f) as H. destruct (new_f s f) as [a s1]. rewrite H. unfold nil_load. destruct (fst (lang f)) eqn:E.
  - left. split; [repeat constructor; exact E|reflexivity].
  - right. split; [eexists; reflexivity|]. intros F. inversion F as [|x y Q]. unfold mute in Q. congruence.
Qed.
Lemma mo_nil s c : nil_load s (match read_mo c with MoOk f => [f] | _ => [] end) (match read_mo c with MoOk _ => true | _ => false end) (load_mo_n norm s None c).
Proof.
  unfold load_mo_n. destruct (read_mo c) as [f| |]; try (left; rewrite plus_nil; split; [constructor|reflexivity]).
  pose proof (add_file_nil s f) as H. destruct (new_f s f) as [a s1]. rewrite H. unfold nil_load. destruct (fst (lang f)) eqn:E.
  - left. split; [repeat constructor; exact E|reflexivity].
  - right. split; [eexists; reflexivity|]. intros F. inversion F as [|x y Q]. unfold mute in Q. congruence.
Qed.
Lemma file_nil s x : nil_load s (cat_of x) (okb x) (load_file_n norm s None x).
Proof.
  assert (N : forall b, nil_load s [] b (NOk b s)) by (intros b; left; rewrite plus_nil; split; [constructor|reflexivity]).
  unfold load_file_n, okb, cat_of, gives. destruct (ff_name x) as [n|]; [|apply N]. destruct (ff_content x) as [c|]; [|apply N].
  unfold ext_po, ext_mo. destruct (has_suffix (B ".po") n); [|destruct (has_suffix (B ".mo") n); [|apply N]].
  - pose proof (po_nil s c) as H. destruct (read_po c); exact H.
  - pose proof (mo_nil s c) as H. destruct (read_mo c); exact H.
Qed.
Lemma walk_nil ext : forall w s l, nil_load s (catalogs ext w) (l || existsb okb (hits ext w)) (walk_n norm ext s None l w).
Proof.
  assert (Cs : forall x r, flat_map (fun x => match gives x with Some (Some f) => [f] | _ => [] end) (x :: r)
                           = cat_of x ++ flat_map (fun x => match gives x with Some (Some f) => [f] | _ => [] end) r) by reflexivity.
  induction w as [|[|dir name o] r IH]; intros s l; unfold catalogs; cbn [walk_n hits].
  - left. rewrite orb_false_r, plus_nil. split; [constructor|reflexivity].
  - left. rewrite orb_false_r, plus_nil. split; [constructor|reflexivity].
  - destruct dir; cbn [negb andb]; [apply IH|]. destruct (has_suffix ext name); [|destruct o; apply IH].
    destruct o as [x|]; [|apply IH]. rewrite Cs. cbn [existsb]. destruct (file_nil s x) as [(M & E)|((cs' & E) & M)]; rewrite E.
    + rewrite orb_assoc. destruct (IH (plus s (cat_of x)) (l || okb x)) as [(M2 & E2)|((cs' & E2) & M2)]; rewrite E2.
      * left. split; [apply Forall_app; split; assumption|]. rewrite plus_plus. reflexivity.
      * right. split; [rewrite plus_plus; eexists; reflexivity|]. intros F. apply Forall_app in F as (_ & F). exact (M2 F).
    + right. split; [eexists; reflexivity|]. intros F. apply Forall_app in F as (F & _). exact (M F).
Qed.
Lemma fs_nil s wm wp : nil_load s (catalogs (B ".mo") wm ++ catalogs (B ".po") wp) (existsb okb (hits (B ".mo") wm ++ hits (B ".po") wp))
  (load_fs_n norm s None wm wp).
Proof.
  unfold load_fs_n. destruct (walk_nil ext_mo wm s false) as [(M & E)|((cs' & E) & M)]; rewrite E.
  - rewrite existsb_app. cbn [orb] in *. destruct (walk_nil ext_po wp (plus s (catalogs ext_mo wm)) (existsb okb (hits ext_mo wm))) as [(M2 & E2)|((cs' & E2) & M2)]; rewrite E2.
    + left. split; [apply Forall_app; split; assumption|]. rewrite plus_plus. reflexivity.
    + right. split; [rewrite plus_plus; eexists; reflexivity|]. intros F. apply Forall_app in F as (_ & F). exact (M2 F).
  - right. split; [eexists; reflexivity|]. intros F. apply Forall_app in F as (F & _). exact (M F).
Qed.
Lemma mput_not_nil {V} k (v : V) m : mput k v m <> [].
Proof. intros H. pose proof (mget_put k k v m) as G. rewrite H in G. assert (E : beq k k = true) by apply beq_refl. rewrite E in G. discriminate. Qed.
Lemma add_all_nil cs : forall n m, add_all (A := A) norm n cs m = [] <-> m = [] /\ Forall mute cs.
Proof.
  induction cs as [|f cs IH]; intros n m; cbn [add_all]; [split; [intros ->; auto|intros (-> & _); reflexivity]|].
  rewrite IH. unfold mute at 2. destruct (fst (lang f)) as [|c l] eqn:E.
  - split; intros (-> & F); (split; [reflexivity|]); [constructor; [exact E|exact F]|inversion F; assumption].
  - split; [intros (Q & _); exfalso; exact (mput_not_nil _ _ _ Q)|]. intros (_ & F). inversion F as [|x y Q]. unfold mute in Q. congruence.
Qed.
Lemma nil_like s cs b r : nil_load s cs b r -> as_on_empty s r b (with_files norm (with_empty s) (empty_of s) cs).
Proof.
  assert (L : tr_langs (the_tr (with_files norm (with_empty s) (empty_of s) cs) (empty_of s)) = add_all norm (length (s_files s)) cs []).
  { unfold the_tr, with_files, with_empty, empty_of, new_translation, new_tr. cbn [snd s_trs s_files]. rewrite nth_upd_same
      by (rewrite app_length; cbn [length]; lia). cbn [tr_langs]. unfold the_tr. cbn [s_trs]. rewrite nth_new. reflexivity. }
  unfold as_on_empty. rewrite L. intros [(M & ->)|((cs' & ->) & M)].
  - split; [apply add_all_nil; auto|reflexivity].
  - rewrite add_all_nil. tauto.
Qed.
Lemma empty_lt s : empty_of s < length (s_trs (with_empty s)).
Proof. unfold empty_of, with_empty, new_translation, new_tr. cbn [snd s_trs]. rewrite app_length. cbn [length]. lia. Qed.
(** what is left behind *)
Definition state_of {X} (r : @nres A X) : state := match r with NOk _ s | NPanic s => s end.
Lemma quiet_plus s cs : wf s -> quiet s (plus s cs).
Proof.
  intros W. split; [|split; [reflexivity|split; [reflexivity|]]].
  - destruct W as [W1 W2 W3 W4 W5 W6 W7]. split; auto. intros t l x E. specialize (W6 t l x E). destruct x; cbn in *; auto. rewrite app_length. lia.
  - intros h H. split; [split; auto|]. split; auto; [|cbn; rewrite app_length; lia].
    intros a Ha. unfold the_file, plus. cbn [s_files]. rewrite nth_app_old by exact Ha. apply same_file_refl.
Qed.
Lemma nil_quiet s cs b r : wf s -> nil_load s cs b r -> quiet s (state_of r).
Proof. intros W [(M & ->)|((cs' & ->) & M)]; apply quiet_plus, W. Qed.
Lemma lang_same_file f : same_file f (snd (lang f)).
Proof. rewrite lang_file. apply same_init_header. Qed.
Lemma quiet_lang s x : wf s -> quiet s (snd (tor_lang s x)).
Proof.
  intros W. split; [apply wf_lang, W|]. destruct x as [|a|u].
  - split; [reflexivity|split; [reflexivity|]]. intros h H. split; [apply same_handle_refl, H|apply keeps_refl].
  - cbn [tor_lang]. pose proof (lang_same_file (the_file s a)) as S. destruct (lang (the_file s a)) as [l f]. cbn [snd] in *.
    split; [reflexivity|split; [reflexivity|]]. intros h H. split; [split; auto|]. split; auto; [|cbn; rewrite upd_length; lia].
    intros b Hb. destruct (Nat.eq_dec b a) as [->|N].
    + unfold the_file at 2, set_file. cbn [s_files]. rewrite nth_upd_same by exact Hb. exact S.
    + unfold the_file at 2, set_file. cbn [s_files]. rewrite nth_upd_other by exact N. apply same_file_refl.
  - split; [reflexivity|split; [reflexivity|]]. intros h H. split; [apply same_handle_refl, H|apply keeps_refl].
Qed.

(** ** Calls one after the other *)
Lemma spared_dec (q : @ncall A) : spared q \/ ~ spared q.
Proof.
  destruct q as [q|h|h dom|h dom|wm wp]; cbn [spared]; auto. destruct q; auto.
  - rewrite <- some_loaded_iff. destruct (existsb okb _); [right; tauto|left; discriminate].
  - destruct domain; auto.
  - destruct cookie; auto.
Qed.
Lemma run_nil z own qs : forall s, wf s -> s_global s = z -> z < length (s_ts s) -> Forall (fun q => needs q = Some HGlob) qs ->
  quiet s (fst (run_ncalls fmt norm z s own qs))
  /\ Forall2 (fun q a => (a = None <-> ~ spared q)) qs (snd (run_ncalls fmt norm z s own qs)).
Proof.
  induction qs as [|q qs IH]; intros s W G L F; cbn [run_ncalls].
  - split; [apply quiet_refl, W|constructor].
  - inversion F as [|q' qs' Nq Fq]; subst. destruct (exec_ncall fmt norm (s_global s) s own q W L) as (P & D).
    destruct (spared_dec q) as [Sp|Sp].
    + assert (N : ~ npanics (s_global s) s own q) by (intros (_ & H); exact (H Sp)). rewrite (D N).
      assert (X : quiet s (fst (done fmt norm s own q)) /\ snd (snd (done fmt norm s own q)) = own).
      { destruct q as [q|h|h dom|h dom|wm wp]; cbn [spared] in Sp; try contradiction.
        destruct q; try contradiction; cbn [done one].
        - split; [|reflexivity]. cbn [fst]. rewrite bind_fs_spec. cbv zeta. rewrite <- some_loaded_iff in Sp.
          destruct (existsb okb _); [exfalso; apply Sp; reflexivity|]. apply (quiet_files fmt norm), W.
        - destruct domain; [|contradiction]. split; [apply quiet_refl, W|reflexivity].
        - destruct cookie; [|contradiction]. split; [apply quiet_refl, W|reflexivity]. }
      destruct X as (X & Eo). destruct (done fmt norm s own q) as [s1 [a own1]]. cbn [fst snd] in *. subst own1.
      pose proof X as (W1 & G1 & T1 & _). destruct (IH s1 W1 G1) as (Q & R); [rewrite T1; exact L|exact Fq|].
      destruct (run_ncalls fmt norm (s_global s) s1 own qs) as [s2 l]. cbn [fst snd] in *. split; [eapply quiet_trans; eassumption|].
      constructor; [|exact R]. split; [discriminate|contradiction].
    + destruct P as (s1 & E & X); [split; [exists HGlob; split; [exact Nq|reflexivity]|exact Sp]|]. rewrite E.
      pose proof X as (W1 & G1 & T1 & _). destruct (IH s1 W1 G1) as (Q & R); [rewrite T1; exact L|exact Fq|].
      destruct (run_ncalls fmt norm (s_global s) s1 own qs) as [s2 l]. cbn [fst snd] in *. split; [eapply quiet_trans; eassumption|].
      constructor; [|exact R]. tauto.
Qed.
End Facts.
