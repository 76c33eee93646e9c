(** Programs with catalogs copied by value: what a call leaves alone, panics, programs without
    copies. *)
From Coq Require Import List ZArith Ascii Lia Permutation.
From Verif Require Import GoStr GoStrFacts GoMap GoMapFacts FileModel FileSpec FormsFacts FileFacts PoModel PoSpec MoModel
  PoReadFacts PoCatalogFacts PoLoadFacts MoCatalogFacts EntryModel EntryFacts CatModel CatSpec CatFacts.
Import ListNotations.
Local Open Scope nat_scope.

Section Runs.
Context {A : Type}.
Variable fmt : bytes -> list A -> bytes.
Implicit Types (os r : list (cop A)) (o : cop A).
Lemma new_view maps maps' l c f : f < length l -> (forall m, c_map (nth f l zero_cat) = Some m -> nth m maps' [] = nth m maps []) ->
  cview {| cs_maps := maps'; cs_files := l ++ [c] |} f = cview {| cs_maps := maps; cs_files := l |} f.
Proof.
  intros F M. unfold cview. rewrite the_new. destruct (Nat.eqb_spec f (length l)); [lia|]. unfold the_cat. cbn [cs_files cs_maps].
  f_equal. destruct (c_map (nth f l zero_cat)) as [m|] eqn:E; [|reflexivity]. apply M. reflexivity.
Qed.
Lemma read_view os s g f : tables_ok os s -> f < cats os -> cview (cat_read s g) f = cview s f.
Proof.
  intros TO F. pose proof TO as (L & _). destruct s as [maps l]. unfold cat_read. cbn [cs_maps cs_files] in *. destruct (f_entries g) as [|p m].
  - apply new_view; [lia|reflexivity].
  - apply new_view; [lia|]. intros a E. apply app_nth1. eapply (map_lt _ {| cs_maps := maps; cs_files := l |}); [exact TO|exact F|exact E].
Qed.
Lemma run_filed os f : cproper os -> f < cats os -> filed (cview (crun fmt os) f).
Proof.
  intros P F. destruct (inv_run fmt os P) as (T & D & _). unfold filed, cview. cbn [f_entries].
  destruct (c_map (the_cat (crun fmt os) f)) as [m|] eqn:Em; [|split; [constructor|intros ? ? []]]. apply D, nth_In. eapply map_lt; eassumption.
Qed.
(** a call that does not concern a catalog leaves it alone *)
Theorem apart_view r o f : cproper (o :: r) -> f < cats r -> concerns r o f = false -> cview (crun fmt (o :: r)) f = cview (crun fmt r) f.
Proof.
  intros [P U] F N. pose proof (inv_run fmt r P) as (TO & _ & Li & _). pose proof TO as (L & _). set (s := crun fmt r) in *. cbn [crun]. fold s. clearbody s.
  assert (Cv : forall g fl, g < cats r -> (f =? g) = false -> cview (set_caches s g fl) f = cview s f).
  { intros g fl G Q. rewrite caches_view by lia. rewrite Q. reflexivity. }
  destruct o as [|c|c|c|[h|]|[g|] [h|]|[g|] [e|]|[g|] k|[g|]|[g|] c i args|[g|] c i i2 n args|[g|]]; cbn [cstep snd concerns cuses about known] in *; try reflexivity.
  - destruct s as [maps l]. apply new_view; [cbn [cs_files] in L; lia|reflexivity].
  - destruct (read_po c); try reflexivity. eapply read_view; eassumption.
  - destruct (read_pot c); try reflexivity. eapply read_view; eassumption.
  - destruct (read_mo c); try reflexivity. eapply read_view; eassumption.
  - destruct s as [maps l]. apply new_view; [cbn [cs_files] in L; lia|reflexivity].
  - unfold cview. rewrite the_put, N. reflexivity.
  - pose proof (need_tables r s g (Some e) TO U) as TN. destruct (need_at s g ltac:(lia)) as (m & E).
    assert (C : cats (CAdd (A:=A) (Some g) (Some e) :: r) = cats r) by (cbn; lia).
    assert (V : cview (put_entry (need_map s g) g e) f = cview s f).
    { rewrite (put_view _ _ g e f m TN) by (try rewrite C; assumption). rewrite N. eapply need_view; eassumption. }
    unfold cat_add. destruct (is_header e); [|exact V]. rewrite caches_view.
    + destruct (Nat.eqb_spec f g) as [-> |]; [|exact V].
      assert (shares (CAdd (Some g) (Some e) :: r) g g = true) by (apply (shares_map _ _ _ _ TN); rewrite ?C; eauto). congruence.
    + destruct (put_entry_length (need_map s g) g e) as [_ ->]. rewrite need_length. lia.
  - eapply need_view; eassumption.
  - apply Cv; assumption.
  - apply Cv; assumption.
  - apply Cv; assumption.
Qed.
(** adding through the catalog itself *)
Lemma add_view r s f e : inv r s -> f < cats r -> cview (cat_add s f e) f = add_entry (cview s f) e.
Proof.
  intros (TO & _ & _ & _) F. pose proof TO as (L & _). pose proof (need_tables (A:=A) r s f (Some e) TO F) as TN. destruct (need_at s f ltac:(lia)) as (m & E).
  assert (C : cats (CAdd (A:=A) (Some f) (Some e) :: r) = cats r) by (cbn; lia).
  assert (V : cview (put_entry (need_map s f) f e) f = {| f_entries := mput (e_key e) e (f_entries (cview s f)); f_headers := f_headers (cview s f); f_plural := f_plural (cview s f) |}).
  { rewrite (put_view _ _ f e f m TN) by (try rewrite C; assumption).
    assert (SF : shares (CAdd (Some f) (Some e) :: r) f f = true) by (apply (shares_map _ _ _ _ TN); rewrite ?C; eauto). rewrite SF.
    change (c_headers (the_cat (need_map s f) f)) with (f_headers (cview (need_map s f) f)). change (c_rule (the_cat (need_map s f) f)) with (f_plural (cview (need_map s f) f)).
    rewrite (need_view r s f f TO F F). reflexivity. }
  unfold cat_add, add_entry. destruct (is_header e); [|exact V]. rewrite caches_view.
  - rewrite Nat.eqb_refl, V. set (g := {| f_entries := _; f_headers := f_headers (cview s f); f_plural := f_plural (cview s f) |}).
    assert (Q : f_entries (init_plural (init_header g)) = f_entries g) by (rewrite init_plural_entries; apply init_header_entries).
    rewrite <- Q. generalize (init_plural (init_header g)). intros [x y z]. reflexivity.
  - destruct (put_entry_length (need_map s f) f e) as [_ ->]. rewrite need_length. lia.
Qed.
(** ** Panics *)
Lemma panics_nil s o : fst (cstep fmt s o) = true <-> nil_used o.
Proof.
  unfold nil_used. destruct o as [|c|c|c|[h|]|[g|] [h|]|[g|] [e|]|[g|] k|[g|]|[g|] c i args|[g|] c i i2 n args|[g|]]; cbn [cstep fst about];
    (split; [intros H; try discriminate H; auto; eauto 6|]);
    intros [H|[(x & H)|[(x & H)|(x & H)]]]; try discriminate H; reflexivity.
Qed.
Lemma nil_concerns r o f : nil_used o -> concerns r o f = false.
Proof.
  unfold nil_used. destruct o as [|c|c|c|[h|]|[g|] [h|]|[g|] [e|]|[g|] k|[g|]|[g|] c i args|[g|] c i i2 n args|[g|]]; cbn [concerns about]; try reflexivity;
    intros [H|[(x & H)|[(x & H)|(x & H)]]]; discriminate H.
Qed.
Lemma nil_makes o : nil_used o -> makes o = 0.
Proof.
  unfold nil_used. destruct o as [|c|c|c|[h|]|[g|] [h|]|[g|] [e|]|[g|] k|[g|]|[g|] c i args|[g|] c i i2 n args|[g|]]; cbn [makes about got]; try reflexivity;
    intros [H|[(x & H)|[(x & H)|(x & H)]]]; discriminate H.
Qed.
(** ** Tables *)
Lemma table_lt os : cproper os -> forall f t, table os f = Some t -> t < length os.
Proof.
  induction os as [|o r IH]; [discriminate|]. intros [P U] f t. cbn [length]. assert (Q : forall x, table r x = Some t -> t < S (length r)) by (intros x E; specialize (IH P _ _ E); lia).
  assert (D : match got o with Some g => if f =? cats r then match f_entries g with [] => None | _ => Some (length r) end else table r f | None => table r f end = Some t -> t < S (length r)).
  { destruct (got o) as [g|]; [|apply Q]. destruct (f =? cats r); [|apply Q]. destruct (f_entries g); [discriminate|]. intros [= <-]. lia. }
  destruct o as [|c|c|c|[h|]|[g|] [h|]|[g|] e|[g|] k|[g|]|[g|] c i args|[g|] c i i2 n args|[g|]]; cbn [table]; try exact D; try apply Q.
  - destruct (f =? cats r); [discriminate|apply Q].
  - destruct (f =? cats r); apply Q.
  - destruct (f =? g); apply Q.
  - destruct (f =? g); [|apply Q]. destruct (table r f) as [t'|] eqn:E; [|intros [= <-]; lia]. intros [= ->]. eapply Q, E.
Qed.
Definition assigned o (f : nat) : Prop := exists h, o = CAssign (Some f) (Some h).
Theorem sharing_kept r o f g : cproper (o :: r) -> f < cats r -> g < cats r -> f <> g -> ~ assigned o f -> ~ assigned o g ->
  shares (o :: r) f g = shares r f g.
Proof.
  intros [P U] F G Ne Nf Ng. pose proof (table_lt r P) as TL.
  assert (Q : (forall a e, o <> CAdd (Some a) e) -> forall x, x < cats r -> ~ assigned o x -> table (o :: r) x = table r x).
  { intros NA x X Nx. assert (E : (x =? cats r) = false) by (apply Nat.eqb_neq; lia).
    destruct o as [|c|c|c|[h|]|[y|] [h|]|[y|] e|[y|] k|[y|]|[y|] c i args|[y|] c i i2 n args|[y|]]; cbn [table]; rewrite ?E; try reflexivity; try (destruct (got _); reflexivity).
    - destruct (Nat.eqb_spec x y) as [-> |]; [|reflexivity]. destruct (Nx (ex_intro _ h eq_refl)).
    - destruct (NA y e eq_refl). }
  destruct o as [|c|c|c|[h|]|[y|] [h|]|[y|] e|[y|] k|[y|]|[y|] c i args|[y|] c i i2 n args|[y|]]; try (unfold shares; rewrite !Q by (assumption || discriminate); reflexivity).
  unfold shares. cbn [table]. destruct (Nat.eqb_spec f y) as [-> |].
  - destruct (Nat.eqb_spec g y); [congruence|]. destruct (table r y) as [t|]; [reflexivity|]. destruct (table r g) as [u|] eqn:E; [|reflexivity].
    apply TL in E. apply Nat.eqb_neq. lia.
  - destruct (Nat.eqb_spec g y) as [-> |]; [|reflexivity]. destruct (table r f) as [t|] eqn:E; [|reflexivity]. destruct (table r y) as [u|]; [reflexivity|].
    apply TL in E. apply Nat.eqb_neq. lia.
Qed.
(** ** Programs without copies *)
Lemma makes_le o : makes o <= 1.
Proof. destruct o as [|c|c|c|[h|]|g h|g e|g k|g|g c i args|g c i i2 n args|g]; cbn [makes]; try lia; destruct (got _); lia. Qed.
Lemma plain_tables os : cproper os -> plain os -> forall f g, f < cats os -> g < cats os -> shares os f g = true -> f = g.
Proof.
  induction os as [|o r IH]; [cbn; lia|]. intros [P U] Pl f g F G Sh. destruct (Nat.eq_dec f g) as [|Ne]; [assumption|]. exfalso.
  assert (Pr : plain r) by (intros x I; apply Pl; right; exact I). destruct (Pl o (or_introl eq_refl)) as (NC & NS & NN).
  assert (NSf : forall x, ~ assigned o x) by (intros x (h & E); exact (NS _ _ E)).
  destruct (Nat.lt_ge_cases f (cats r)) as [Lf|Lf], (Nat.lt_ge_cases g (cats r)) as [Lg|Lg].
  - rewrite sharing_kept in Sh by (auto; split; assumption). exact (Ne (IH P Pr f g Lf Lg Sh)).
  - assert (M : makes o = 1 /\ g = cats r) by (cbn [cats] in G; pose proof (makes_le o); lia).
    destruct M as [M ->]. assert (E : (f =? cats r) = false) by (apply Nat.eqb_neq; lia). unfold shares in Sh.
    destruct o as [|c|c|c|[h|]|[y|] [h|]|[y|] e|[y|] k|[y|]|[y|] c i args|[y|] c i i2 n args|[y|]]; try discriminate M; cbn [table] in Sh; rewrite ?E, ?Nat.eqb_refl in Sh;
      try (destruct (table r f); discriminate Sh); try (destruct (NC _ eq_refl));
      (destruct (got _) as [x|] eqn:Gx; [|cbn [makes] in M; rewrite Gx in M; discriminate M]);
      (destruct (table r f) as [t|] eqn:Et; [|discriminate Sh]); (destruct (f_entries x); [discriminate Sh|]); apply Nat.eqb_eq in Sh; apply (table_lt r P) in Et; lia.
  - assert (M : makes o = 1 /\ f = cats r) by (cbn [cats] in F; pose proof (makes_le o); lia).
    destruct M as [M ->]. assert (E : (g =? cats r) = false) by (apply Nat.eqb_neq; lia). unfold shares in Sh.
    destruct o as [|c|c|c|[h|]|[y|] [h|]|[y|] e|[y|] k|[y|]|[y|] c i args|[y|] c i i2 n args|[y|]]; try discriminate M; cbn [table] in Sh; rewrite ?E, ?Nat.eqb_refl in Sh;
      try discriminate Sh; try (destruct (NC _ eq_refl));
      (destruct (got _) as [x|] eqn:Gx; [|cbn [makes] in M; rewrite Gx in M; discriminate M]);
      (destruct (f_entries x); [discriminate Sh|]); (destruct (table r g) as [t|] eqn:Et; [|discriminate Sh]); apply Nat.eqb_eq in Sh; apply (table_lt r P) in Et; lia.
  - cbn [cats] in F, G. pose proof (makes_le o). lia.
Qed.
Theorem plain_view os : cproper os -> plain os -> forall f, f < cats os -> cview (crun fmt os) f = fold_left (step fmt) (snd (acts os f)) (fst (acts os f)).
Proof.
  induction os as [|o r IH]; [cbn; lia|]. intros PP Pl f F. pose proof PP as [P U].
  assert (Pr : plain r) by (intros x I; apply Pl; right; exact I). destruct (Pl o (or_introl eq_refl)) as (NC & NS & NN).
  pose proof (inv_run fmt r P) as I. pose proof I as (TO & _). pose proof TO as (L & _).
  assert (Rd : forall g, got o = Some g -> f = cats r -> cview (cat_read (crun fmt r) g) f = g).
  { intros g G ->. unfold cat_read. destruct (f_entries g) as [|p m] eqn:E; unfold cview; rewrite the_new, L, Nat.eqb_refl; cbn [c_map c_headers c_rule cs_maps].
    - rewrite <- E. destruct g; reflexivity.
    - rewrite app_nth2, Nat.sub_diag by lia. cbn [nth]. rewrite <- E. destruct g; reflexivity. }
  assert (Cc : forall g fl, g < cats r -> f = g -> cview (set_caches (crun fmt r) g fl) f = {| f_entries := f_entries (cview (crun fmt r) g); f_headers := f_headers fl; f_plural := f_plural fl |}).
  { intros g fl Hg ->. rewrite caches_view by lia. rewrite Nat.eqb_refl. reflexivity. }
  assert (Eta : forall (x y : file), f_entries x = f_entries y -> {| f_entries := f_entries y; f_headers := f_headers x; f_plural := f_plural x |} = x).
  { intros x y <-. destruct x; reflexivity. }
  assert (Ap : f < cats r -> concerns r o f = false -> act o f = [] -> acts (o :: r) f = acts r f ->
      cview (crun fmt (o :: r)) f = fold_left (step fmt) (snd (acts (o :: r) f)) (fst (acts (o :: r) f))).
  { intros Lf N _ ->. rewrite (apart_view r o f PP Lf N). apply IH; assumption. }
  destruct o as [|c|c|c|[h|]|[g|] [h|]|[g|] [e|]|[g|] k|[g|]|[g|] c i args|[g|] c i i2 n args|[g|]];
    try (exfalso; apply NN; unfold nil_used; cbn [about]; eauto 6; fail); try (destruct (NC _ eq_refl)); try (destruct (NS _ _ eq_refl)).
  - cbn [cats makes] in F. cbn [acts]. destruct (Nat.eqb_spec f (cats r)) as [-> |Ne].
    + cbn [fst snd fold_left crun cstep]. unfold cview. rewrite the_new, L, Nat.eqb_refl. reflexivity.
    + rewrite apart_view by (auto; lia). apply IH; auto. lia.
  - cbn [acts]. destruct (got (CReadPo c)) as [g|] eqn:G.
    + destruct (Nat.eqb_spec f (cats r)) as [E|Ne].
      * cbn [fst snd fold_left crun cstep]. pose proof G as G'. cbn [got] in G'. destruct (read_po c); try discriminate. injection G' as ->. apply Rd; auto.
      * cbn [cats makes] in F. rewrite G in F. rewrite apart_view by (auto; lia). apply IH; auto. lia.
    + cbn [cats makes] in F. rewrite G in F. cbn [fst snd act]. rewrite app_nil_r. rewrite apart_view by (auto; lia). apply IH; auto. lia.
  - cbn [acts]. destruct (got (CReadPot c)) as [g|] eqn:G.
    + destruct (Nat.eqb_spec f (cats r)) as [E|Ne].
      * cbn [fst snd fold_left crun cstep]. pose proof G as G'. cbn [got] in G'. destruct (read_pot c); try discriminate. injection G' as ->. apply Rd; auto.
      * cbn [cats makes] in F. rewrite G in F. rewrite apart_view by (auto; lia). apply IH; auto. lia.
    + cbn [cats makes] in F. rewrite G in F. cbn [fst snd act]. rewrite app_nil_r. rewrite apart_view by (auto; lia). apply IH; auto. lia.
  - cbn [acts]. destruct (got (CReadMo c)) as [g|] eqn:G.
    + destruct (Nat.eqb_spec f (cats r)) as [E|Ne].
      * cbn [fst snd fold_left crun cstep]. pose proof G as G'. cbn [got] in G'. destruct (read_mo c); try discriminate. injection G' as ->. apply Rd; auto.
      * cbn [cats makes] in F. rewrite G in F. rewrite apart_view by (auto; lia). apply IH; auto. lia.
    + cbn [cats makes] in F. rewrite G in F. cbn [fst snd act]. rewrite app_nil_r. rewrite apart_view by (auto; lia). apply IH; auto. lia.
  - cbn [cats makes got] in F. rewrite Nat.add_0_r in F. cbn [acts got fst snd act]. cbn [cuses about known] in U. destruct (Nat.eqb_spec f g) as [-> |Ne].
    + rewrite fold_left_app, <- IH by assumption. cbn [crun cstep snd fold_left step]. apply add_view with r; assumption.
    + rewrite app_nil_r. rewrite apart_view; auto. cbn [concerns]. destruct (shares _ f g) eqn:Sh; [|reflexivity].
      rewrite sharing_kept in Sh; auto; try (intros (h & E); discriminate E). destruct (Ne (plain_tables r P Pr f g F U Sh)).
  - cbn [cats makes got] in F. rewrite Nat.add_0_r in F. cbn [acts got fst snd act]. cbn [cuses about known] in U. destruct (Nat.eqb_spec f g) as [-> |Ne].
    + rewrite fold_left_app, <- IH by assumption. cbn [crun cstep snd fold_left step]. rewrite Cc by auto. apply Eta. apply get_header_entries.
    + rewrite app_nil_r. rewrite apart_view; auto. cbn [concerns]. apply Nat.eqb_neq, Ne.
  - cbn [cats makes got] in F. rewrite Nat.add_0_r in F. cbn [acts got fst snd act]. cbn [cuses about known] in U. destruct (Nat.eqb_spec f g) as [-> |Ne].
    + rewrite fold_left_app, <- IH by assumption. cbn [crun cstep snd fold_left step]. rewrite Cc by auto. apply Eta. rewrite lang_file. apply init_header_entries.
    + rewrite app_nil_r. rewrite apart_view; auto. cbn [concerns]. apply Nat.eqb_neq, Ne.
  - cbn [cats makes got] in F. rewrite Nat.add_0_r in F. cbn [acts got fst snd act]. cbn [cuses about known] in U. rewrite apart_view by auto. rewrite IH by assumption.
    destruct (Nat.eqb_spec f g) as [-> |Ne]; [|rewrite app_nil_r; reflexivity]. rewrite fold_left_app. reflexivity.
  - cbn [cats makes got] in F. rewrite Nat.add_0_r in F. cbn [acts got fst snd act]. cbn [cuses about known] in U. destruct (Nat.eqb_spec f g) as [-> |Ne].
    + rewrite fold_left_app, <- IH by assumption. cbn [crun cstep snd fold_left step]. rewrite Cc by auto. apply Eta. rewrite xn_caches.
      destruct (mget _ _) as [e|]; [|reflexivity]. destruct (negb _); [apply init_plural_entries|reflexivity].
    + rewrite app_nil_r. rewrite apart_view; auto. cbn [concerns]. apply Nat.eqb_neq, Ne.
  - cbn [cats makes got] in F. rewrite Nat.add_0_r in F. cbn [acts got fst snd act]. rewrite app_nil_r. rewrite apart_view by auto. apply IH; assumption.
Qed.
End Runs.
