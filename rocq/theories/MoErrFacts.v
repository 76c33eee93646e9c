(** Facts about the errors and the buffers of the .mo reader. *)
From Coq Require Import Lia ZifyBool ZifyNat ZifyN.
From Verif Require Import GoStr GoStrFacts GoFmt GoMap FileModel PoModel MoModel MoSpec MoFacts ErrModel ErrSpec ErrFacts MoErrModel MoErrSpec.
Local Open Scope N_scope.

(** ** What is left at a position *)
Lemma drop_length p c : N.of_nat (length (drop p c)) = size c - p.
Proof. rewrite drop_skipn, skipn_length. unfold size. lia. Qed.
Definition why (s : bytes) : reason := match s with [] => Nothing | _ => Too_little end.
Lemma why_missing c p : why (drop p c) = missing c p.
Proof.
  unfold missing. pose proof (drop_length p c) as L. destruct (drop p c) as [|x r]; cbn [length why] in *.
  - destruct (N.leb_spec (size c) p); [reflexivity|lia].
  - destruct (N.leb_spec (size c) p); [lia|reflexivity].
Qed.
Lemma drop_0 c : drop 0 c = c. Proof. destruct c; reflexivity. Qed.
Lemma take_none : forall s n, take n s = None <-> N.of_nat (length s) < n.
Proof.
  intros s n. destruct (take n s) as [x|] eqn:E.
  - apply take_some in E as (r & -> & <-). rewrite app_length. split; [discriminate|lia].
  - split; [|reflexivity]. intros _. destruct (N.lt_ge_cases (N.of_nat (length s)) n) as [L|L]; [exact L|].
    assert (X : take n s = Some (firstn (N.to_nat n) s)).
    { apply take_some. exists (skipn (N.to_nat n) s). split; [symmetry; apply firstn_skipn|]. rewrite firstn_length. lia. }
    congruence.
Qed.
Lemma read_str_fits c l o : (exists s, read_str c (l, o) = Some s) <-> fits c l o.
Proof.
  unfold read_str, fits. cbn [fst snd]. pose proof (take_none (drop o c) l) as T. rewrite drop_length in T.
  destruct (take l (drop o c)) as [s|].
  - split; [|eauto]. intros _. destruct (N.lt_ge_cases (size c - o) l) as [H|H]; [apply T in H; discriminate|lia].
  - split; [intros [s [=]]|]. intros H. exfalso. assert (size c - o < l) by (apply T; reflexivity). lia.
Qed.
Lemma read_str_not c l o : ~ fits c l o -> read_str c (l, o) = None.
Proof. intros H. destruct (read_str c (l, o)) as [s|] eqn:E; [|reflexivity]. destruct H. apply read_str_fits. eauto. Qed.
Lemma fits_dec c l o : fits c l o \/ ~ fits c l o.
Proof. unfold fits. destruct (N.eq_dec l 0); [left; auto|]. destruct (N.le_gt_cases (o + l) (size c)); [left; auto|right; lia]. Qed.

(** ** Tables *)
Lemma row_exists bo c p : p + 8 <= size c -> exists a b, word_at bo c p a /\ word_at bo c (p + 4) b.
Proof.
  intros H. pose proof (drop_length p c) as L. destruct (drop p c) as [|b0 [|b1 [|b2 [|b3 [|b4 [|b5 [|b6 [|b7 r]]]]]]]] eqn:D; cbn [length] in L; try lia.
  exists (word32 bo b0 b1 b2 b3), (word32 bo b4 b5 b6 b7). rewrite !word_at_drop. split.
  - exists b0, b1, b2, b3, (b4 :: b5 :: b6 :: b7 :: r). auto.
  - exists b4, b5, b6, b7, r. split; [|reflexivity]. rewrite <- drop_drop, D. reflexivity.
Qed.
Lemma table_e_some bo : forall s n i l, read_table_e bo n i s = inl l <-> read_table bo n s = Some l.
Proof.
  intros s. remember (length s) as k eqn:K. revert s K. induction k as [k IH] using (well_founded_induction Wf_nat.lt_wf).
  intros s K n i l. destruct s as [|b0 [|b1 [|b2 [|b3 [|b4 [|b5 [|b6 [|b7 r]]]]]]]]; cbn [read_table read_table_e];
    destruct (n =? 0); try (split; congruence).
  cbn [length] in K. specialize (IH (length r) ltac:(lia) r eq_refl (n - 1) (i + 1)).
  destruct (read_table bo (n - 1) r) as [l'|]; destruct (read_table_e bo (n - 1) (i + 1) r) as [l2|x]; cbn [option_map].
  - assert (E : Some l' = Some l2) by (apply IH; reflexivity). injection E as ->. split; intros [= <-]; reflexivity.
  - assert (E : inr x = inl (B := N * bytes) l') by (apply IH; reflexivity). discriminate.
  - assert (E : None = Some l2) by (apply IH; reflexivity). discriminate.
  - split; discriminate.
Qed.
Lemma table_e_cut bo c : forall k p n i, N.of_nat k < n -> has_table c p (N.of_nat k) -> size c < p + 8 * N.of_nat k + 8 ->
  read_table_e bo n i (drop p c) = inr (i + N.of_nat k, drop (p + 8 * N.of_nat k) c).
Proof.
  induction k as [|k IH]; intros p n i Hk Hh Hs.
  - replace (p + 8 * N.of_nat 0) with p in * by lia. replace (i + N.of_nat 0) with i by lia.
    pose proof (drop_length p c) as L.
    destruct (drop p c) as [|b0 [|b1 [|b2 [|b3 [|b4 [|b5 [|b6 [|b7 r]]]]]]]]; cbn [length read_table_e] in *;
      destruct (N.eqb_spec n 0); try lia; reflexivity.
  - destruct Hh as [Hh|Hh]; [lia|]. pose proof (drop_length p c) as L.
    destruct (drop p c) as [|b0 [|b1 [|b2 [|b3 [|b4 [|b5 [|b6 [|b7 r]]]]]]]] eqn:D; cbn [length] in L; try lia.
    cbn [read_table_e]. destruct (N.eqb_spec n 0); [lia|].
    assert (Dr : drop (p + 8) c = r) by (rewrite <- drop_drop, D; destruct r; reflexivity).
    rewrite <- Dr, (IH (p + 8) (n - 1) (i + 1)).
    + f_equal. f_equal; [lia|]. f_equal. lia.
    + lia.
    + right. lia.
    + lia.
Qed.
Lemma table_e_full bo c : forall k p i, has_table c p (N.of_nat k) -> exists l, read_table_e bo (N.of_nat k) i (drop p c) = inl l.
Proof.
  induction k as [|k IH]; intros p i H.
  - exists []. destruct (drop p c); reflexivity.
  - destruct H as [H|H]; [lia|]. pose proof (drop_length p c) as L.
    destruct (drop p c) as [|b0 [|b1 [|b2 [|b3 [|b4 [|b5 [|b6 [|b7 r]]]]]]]] eqn:D; cbn [length] in L; try lia.
    assert (Dr : drop (p + 8) c = r) by (rewrite <- drop_drop, D; destruct r; reflexivity).
    destruct (IH (p + 8) (i + 1)) as [l E]; [right; lia|].
    cbn [read_table_e]. destruct (N.eqb_spec (N.of_nat (S k)) 0); [lia|].
    replace (N.of_nat (S k) - 1) with (N.of_nat k) by lia. rewrite <- Dr, E. eauto.
Qed.
Lemma table_dec c p n : has_table c p n \/ exists i, cut_row c p n i.
Proof.
  unfold cut_row, has_table. destruct (N.eq_dec n 0) as [->|Nz]; [auto|].
  destruct (N.le_gt_cases (p + 8 * n) (size c)) as [H|H]; [auto|]. right.
  destruct (N.le_gt_cases (p + 8) (size c)) as [H'|H'].
  - exists ((size c - p) / 8). pose proof (N.div_mod (size c - p) 8 ltac:(lia)). pose proof (N.mod_lt (size c - p) 8 ltac:(lia)). lia.
  - exists 0. lia.
Qed.
Lemma pairs_row bo c : forall ps p k l o, pairs_at bo c p ps -> nth_error ps k = Some (l, o) -> row bo c (p + 8 * N.of_nat k) l o.
Proof.
  induction ps as [|[a b] ps IH]; intros p k l o H E; [destruct k; discriminate|]. cbn [pairs_at] in H. destruct H as (H1 & H2 & H3).
  destruct k as [|k].
  - cbn in E. injection E as -> ->. replace (p + 8 * N.of_nat 0) with p by lia. split; assumption.
  - replace (p + 8 * N.of_nat (S k)) with (p + 8 + 8 * N.of_nat k) by lia. apply (IH _ _ _ _ H3 E).
Qed.
Lemma row_fun bo c p l o l' o' : row bo c p l o -> row bo c p l' o' -> l = l' /\ o = o'.
Proof. intros [H1 H2] [H3 H4]. split; [apply (word_at_fun _ _ _ _ _ H1 H3)|apply (word_at_fun _ _ _ _ _ H2 H4)]. Qed.
Lemma pairs_good bo c ps p k lo : pairs_at bo c p ps -> nth_error ps k = Some lo ->
  (good_row bo c (p + 8 * N.of_nat k) <-> fits c (fst lo) (snd lo)).
Proof.
  destruct lo as [l o]. intros H E. pose proof (pairs_row _ _ _ _ _ _ _ H E) as R. cbn [fst snd]. split.
  - intros (l' & o' & R' & F). destruct (row_fun _ _ _ _ _ _ _ R R') as [-> ->]. exact F.
  - intros F. exists l, o. auto.
Qed.

Section ME.
Context {A : Type}.
Variable print : spec -> arg (val A) -> bytes.
Variable as_int : arg (val A) -> option Z.
Variable extra : list (arg (val A)) -> bytes.
Variables err_read_mo eof unexpected_eof : err.
Variable next : nat.
Notation cannot_read := (cannot_read print as_int extra err_read_mo eof unexpected_eof next).
Notation bad_value := (bad_value print as_int extra err_read_mo next).
Notation read_strings_e := (read_strings_e print as_int extra err_read_mo eof unexpected_eof next).
Notation read_with_e := (read_with_e print as_int extra err_read_mo eof unexpected_eof next).
Notation read_mo_e := (read_mo_e print as_int extra err_read_mo eof unexpected_eof next).

(** ** The same reader *)
Definition bare_mo (r : mores_e) : mores := match r with MOk f => MoOk f | MFail _ => MoErr | MPanic => MoPanic end.
Lemma strings_bare c : forall ids strs i f, bare_mo (snd (read_strings_e c i ids strs f)) = read_strings c ids strs f.
Proof.
  induction ids as [|a ids IH]; intros [|b strs] i f; try reflexivity. cbn [MoErrModel.read_strings_e read_strings].
  destruct (read_str c a); [|reflexivity]. destruct (read_str c b); [|reflexivity].
  rewrite <- (IH strs (i + 1)). destruct (read_strings_e c (i + 1) ids strs _). reflexivity.
Qed.
Lemma table_e_none bo s n i : (exists x, read_table_e bo n i s = inr x) <-> read_table bo n s = None.
Proof.
  pose proof (table_e_some bo s n i) as T. destruct (read_table_e bo n i s) as [l|x]; destruct (read_table bo n s) as [l'|].
  - split; [intros [x [=]]|discriminate].
  - specialize (T l). assert (E : None = Some l) by (apply T; reflexivity). discriminate.
  - specialize (T l'). assert (E : inr x = inl (B := N * bytes) l') by (apply T; reflexivity). discriminate.
  - split; eauto.
Qed.
Lemma with_bare bo c : bare_mo (snd (read_with_e bo c)) = read_with bo c.
Proof.
  unfold MoErrModel.read_with_e, read_with. destruct (read_header bo c) as [h|]; [|reflexivity].
  destruct (_ && _); [reflexivity|]. destruct (_ && _); [reflexivity|].
  pose proof (table_e_some bo (drop (h_o h) c) (h_count h) 0) as T1. pose proof (table_e_none bo (drop (h_o h) c) (h_count h) 0) as T2.
  destruct (read_table_e bo (h_count h) 0 (drop (h_o h) c)) as [ids|[i s]].
  2:{ rewrite (proj1 T2) by eauto. reflexivity. }
  rewrite (proj1 (T1 ids) eq_refl).
  pose proof (table_e_some bo (drop (h_t h) c) (h_count h) 0) as T3. pose proof (table_e_none bo (drop (h_t h) c) (h_count h) 0) as T4.
  destruct (read_table_e bo (h_count h) 0 (drop (h_t h) c)) as [strs|[i s]].
  2:{ rewrite (proj1 T4) by eauto. reflexivity. }
  rewrite (proj1 (T3 strs) eq_refl). apply strings_bare.
Qed.
Theorem read_mo_bare c : bare_mo (snd (read_mo_e c)) = read_mo c.
Proof.
  rewrite read_mo_with. unfold MoErrModel.read_mo_e. destruct (read_magic c) as [m|]; [|reflexivity].
  destruct (m =? mo_magic_big); [apply with_bare|]. destruct (m =? mo_magic); [apply with_bare|reflexivity].
Qed.

(** ** The error values *)
Hypothesis ST : mo_settings print err_read_mo eof unexpected_eof next.
Definition tail_of (r : reason) : bytes := match r with NoCause => [] | Nothing => B ": EOF" | Too_little => B ": unexpected EOF" end.
Definition kids_of (r : reason) : list err := match r with NoCause => [] | Nothing => [eof] | Too_little => [unexpected_eof] end.
Definition error_of (m : bytes) (r : reason) : err :=
  Err (S next) (told m r) (fun _ => false) [err_read_mo; Err next (m ++ tail_of r) (fun _ => false) (kids_of r)].
Lemma mo_failed_eq m r :
  mo_failed print as_int extra err_read_mo next (Err next (m ++ tail_of r) (fun _ => false) (kids_of r)) = error_of m r.
Proof.
  unfold mo_failed, WithSecondaryError, errorf, boxed, error_of. set (e := Err next _ _ _).
  change (printf_chunks as_int (B "%w: %w") [VOther (VErr err_read_mo); VOther (VErr e)])
    with (Some (A := list (chunk (val A))) [CArg (plain 119) (VOther (VErr err_read_mo)); CText (B ": "); CArg (plain 119) (VOther (VErr e))]).
  cbv beta iota. f_equal. unfold render. cbn [map concat show]. unfold print_arg. cbn [plain sp_flags sp_wid sp_prec].
  rewrite !(ms_print _ _ _ _ _ ST). destruct (ms_read _ _ _ _ _ ST) as [j ->]. unfold e. cbn [e_msg]. rewrite app_nil_r. reflexivity.
Qed.
Lemma short_kids s : kids_of (why s) = [short eof unexpected_eof s].
Proof. destruct s; reflexivity. Qed.
Lemma short_msg s : B ": " ++ e_msg (short eof unexpected_eof s) = tail_of (why s).
Proof.
  destruct (ms_eof _ _ _ _ _ ST) as [i ->]. destruct (ms_ueof _ _ _ _ _ ST) as [j ->]. destruct s; reflexivity.
Qed.
Ltac shown :=
  cbv beta iota; unfold render; cbn [map concat show]; unfold print_arg; cbn [plain sp_flags sp_wid sp_prec sp_verb N.eqb Pos.eqb];
  rewrite ?(ms_print _ _ _ _ _ ST).
Lemma cannot_plain m s : In m [B "failed to read magic number"; B "failed to read mo header"] -> cannot_read m [] s = error_of m (why s).
Proof.
  intros I. unfold MoErrModel.cannot_read. rewrite <- mo_failed_eq. f_equal. unfold Wrapf, errorf, boxed.
  assert (E : printf_chunks as_int (m ++ B ": %w") ([] ++ [VOther (VErr (short eof unexpected_eof s))])
    = Some (A := list (chunk (val A))) [CText (m ++ B ": "); CArg (plain 119) (VOther (VErr (short eof unexpected_eof s)))]).
  { destruct I as [<-|[<-|[]]]; reflexivity. }
  rewrite E. shown. rewrite short_kids, <- short_msg, app_nil_r, <- app_assoc. reflexivity.
Qed.
Definition row_formats : list (bytes * bytes) :=
  [(B "failed to read msg_id[", B "]"); (B "failed to read msg_str[", B "]");
   (B "failed to read msg_id[", B "] length & offset"); (B "failed to read msg_str[", B "] length & offset")].
Lemma dec_Z_N n : dec_Z (Z.of_N n) = dec n. Proof. destruct n; reflexivity. Qed.
Lemma cannot_row f n s : In f row_formats ->
  cannot_read (fst f ++ B "%d" ++ snd f) [VInt (Z.of_N n)] s = error_of (fst f ++ dec n ++ snd f) (why s).
Proof.
  intros I. unfold MoErrModel.cannot_read. rewrite <- mo_failed_eq. f_equal. unfold Wrapf, errorf, boxed.
  assert (E : printf_chunks as_int ((fst f ++ B "%d" ++ snd f) ++ B ": %w") ([VInt (Z.of_N n)] ++ [VOther (VErr (short eof unexpected_eof s))])
    = Some (A := list (chunk (val A))) [CText (fst f); CArg (plain 100) (VInt (Z.of_N n)); CText (snd f ++ B ": ");
             CArg (plain 119) (VOther (VErr (short eof unexpected_eof s)))]).
  { destruct I as [<-|[<-|[<-|[<-|[]]]]]; reflexivity. }
  rewrite E. shown. rewrite short_kids, <- short_msg, app_nil_r, dec_Z_N, <- !app_assoc. reflexivity.
Qed.
Lemma bad_value_eq m v : In m [B "invalid magic number: "; B "unsopported major version: "; B "unsopported minor version: "] ->
  bad_value (m ++ B "%v") v = error_of (m ++ dec v) NoCause.
Proof.
  intros I. unfold MoErrModel.bad_value. rewrite <- mo_failed_eq. f_equal. unfold Errorf, errorf.
  assert (E : printf_chunks as_int (m ++ B "%v") [VInt (Z.of_N v)]
    = Some (A := list (chunk (val A))) [CText m; CArg (plain 118) (VInt (Z.of_N v))]).
  { destruct I as [<-|[<-|[<-|[]]]]; reflexivity. }
  rewrite E. shown. change (print _ (VInt (Z.of_N v))) with (print (plain 118) (VInt (Z.of_N v))).
  rewrite (ms_int _ _ _ _ _ ST). cbn [tail_of]. rewrite !app_nil_r. reflexivity.
Qed.

(** ** Strings *)
Lemma strings_bad_id c : forall k ids strs i f l o, length ids = length strs ->
  (forall j a b, (j < k)%nat -> nth_error ids j = Some a -> nth_error strs j = Some b -> fits c (fst a) (snd a) /\ fits c (fst b) (snd b)) ->
  nth_error ids k = Some (l, o) -> ~ fits c l o ->
  snd (read_strings_e c i ids strs f) = MFail (cannot_read (B "failed to read msg_id[%d]") [VInt (Z.of_N (i + N.of_nat k))] (drop o c)).
Proof.
  induction k as [|k IH]; intros [|a ids] [|b strs] i f l o L H E NF; try discriminate; cbn [nth_error] in E.
  - injection E as ->. cbn [MoErrModel.read_strings_e]. rewrite read_str_not by exact NF. cbn [snd]. replace (i + N.of_nat 0) with i by lia. reflexivity.
  - cbn [MoErrModel.read_strings_e]. destruct (H 0%nat a b ltac:(lia) eq_refl eq_refl) as [F1 F2]. destruct a as [a1 a2], b as [b1 b2]. cbn [fst snd] in *.
    apply read_str_fits in F1 as [s1 ->]. apply read_str_fits in F2 as [s2 ->].
    specialize (IH ids strs (i + 1) (add_entry f (mo_entry s1 s2)) l o).
    destruct (read_strings_e c (i + 1) ids strs (add_entry f (mo_entry s1 s2))) as [q r]. cbn [snd] in *. rewrite IH.
    + replace (i + 1 + N.of_nat k) with (i + N.of_nat (S k)) by lia. reflexivity.
    + cbn [length] in L. lia.
    + intros j x y Hj. apply (H (S j)). lia.
    + exact E.
    + exact NF.
Qed.
Lemma strings_bad_str c : forall k ids strs i f l o, length ids = length strs ->
  (forall j a b, (j < k)%nat -> nth_error ids j = Some a -> nth_error strs j = Some b -> fits c (fst a) (snd a) /\ fits c (fst b) (snd b)) ->
  (forall a, nth_error ids k = Some a -> fits c (fst a) (snd a)) ->
  nth_error strs k = Some (l, o) -> ~ fits c l o ->
  snd (read_strings_e c i ids strs f) = MFail (cannot_read (B "failed to read msg_str[%d]") [VInt (Z.of_N (i + N.of_nat k))] (drop o c)).
Proof.
  induction k as [|k IH]; intros [|a ids] [|b strs] i f l o L H H2 E NF; try discriminate; cbn [nth_error] in E.
  - injection E as ->. cbn [MoErrModel.read_strings_e]. specialize (H2 a eq_refl). destruct a as [a1 a2]. cbn [fst snd] in *.
    apply read_str_fits in H2 as [s1 ->].
    rewrite read_str_not by exact NF. cbn [snd]. replace (i + N.of_nat 0) with i by lia. reflexivity.
  - cbn [MoErrModel.read_strings_e]. destruct (H 0%nat a b ltac:(lia) eq_refl eq_refl) as [F1 F2]. destruct a as [a1 a2], b as [b1 b2]. cbn [fst snd] in *.
    apply read_str_fits in F1 as [s1 ->]. apply read_str_fits in F2 as [s2 ->].
    specialize (IH ids strs (i + 1) (add_entry f (mo_entry s1 s2)) l o).
    destruct (read_strings_e c (i + 1) ids strs (add_entry f (mo_entry s1 s2))) as [q r]. cbn [snd] in *. rewrite IH.
    + replace (i + 1 + N.of_nat k) with (i + N.of_nat (S k)) by lia. reflexivity.
    + cbn [length] in L. lia.
    + intros j x y Hj. apply (H (S j)). lia.
    + exact H2.
    + exact E.
    + exact NF.
Qed.
(** all strings fit, or there is a first that does not *)
Lemma strings_dec c : forall (ids strs : list (N * N)), length ids = length strs ->
  (forall j a b, nth_error ids j = Some a -> nth_error strs j = Some b -> fits c (fst a) (snd a) /\ fits c (fst b) (snd b))
  \/ exists k a b, nth_error ids k = Some a /\ nth_error strs k = Some b
     /\ (forall j x y, (j < k)%nat -> nth_error ids j = Some x -> nth_error strs j = Some y -> fits c (fst x) (snd x) /\ fits c (fst y) (snd y))
     /\ (~ fits c (fst a) (snd a) \/ (fits c (fst a) (snd a) /\ ~ fits c (fst b) (snd b))).
Proof.
  induction ids as [|a ids IH]; intros [|b strs] L; try discriminate.
  - left. intros j x y E. destruct j; discriminate.
  - destruct (fits_dec c (fst a) (snd a)) as [F1|F1].
    2:{ right. exists 0%nat, a, b. repeat split; auto. all: intros; lia. }
    destruct (fits_dec c (fst b) (snd b)) as [F2|F2].
    2:{ right. exists 0%nat, a, b. repeat split; auto. all: intros; lia. }
    destruct (IH strs ltac:(cbn [length] in L; lia)) as [H|(k & x & y & E1 & E2 & H & D)].
    + left. intros [|j] x y E1 E2; cbn [nth_error] in *; [|apply (H j x y E1 E2)]. injection E1 as <-. injection E2 as <-. auto.
    + right. exists (S k), x, y. split; [exact E1|]. split; [exact E2|]. split; [|exact D].
      intros [|j] u v Hj E1' E2'; cbn [nth_error] in *; [|apply (H j u v ltac:(lia) E1' E2')]. injection E1' as <-. injection E2' as <-. auto.
Qed.
Lemma strings_fine c : forall ids strs i f, length ids = length strs ->
  (forall j a b, nth_error ids j = Some a -> nth_error strs j = Some b -> fits c (fst a) (snd a) /\ fits c (fst b) (snd b)) ->
  exists g, snd (read_strings_e c i ids strs f) = MOk g.
Proof.
  induction ids as [|a ids IH]; intros [|b strs] i f L H; try discriminate; [eexists; reflexivity|].
  cbn [MoErrModel.read_strings_e]. destruct (H 0%nat a b eq_refl eq_refl) as [F1 F2]. destruct a as [a1 a2], b as [b1 b2]. cbn [fst snd] in *.
  apply read_str_fits in F1 as [s1 ->]. apply read_str_fits in F2 as [s2 ->].
  destruct (IH strs (i + 1) (add_entry f (mo_entry s1 s2)) ltac:(cbn [length] in L; lia)) as [g E].
  { intros j x y. apply (H (S j)). }
  destruct (read_strings_e c (i + 1) ids strs (add_entry f (mo_entry s1 s2))) as [q r]. cbn [snd] in *. eauto.
Qed.

(** ** From the faults to the errors *)
Lemma magic_short c : size c < 4 -> read_magic c = None.
Proof. intros H. unfold read_magic. rewrite (proj2 (take_none c 4)); [reflexivity|exact H]. Qed.
Lemma magic_le c v : read_magic c = Some v <-> word_at LE c 0 v.
Proof.
  rewrite word_at_drop, drop_0. unfold read_magic. split.
  - intros H. destruct (take 4 c) as [x|] eqn:E; [|discriminate].
    destruct x as [|b0 [|b1 [|b2 [|b3 [|? ?]]]]]; try discriminate. apply take_some in E as (r & -> & _).
    exists b0, b1, b2, b3, r. split; [reflexivity|congruence].
  - intros (b0 & b1 & b2 & b3 & r & -> & ->).
    assert (T : take 4 (b0 :: b1 :: b2 :: b3 :: r) = Some [b0; b1; b2; b3]) by (apply take_some; exists r; split; reflexivity).
    rewrite T. reflexivity.
Qed.
Lemma mo_order bo c : word_at bo c 0 0x950412de -> read_mo_e c = read_with_e bo c.
Proof.
  intros H. apply order_word in H. unfold MoErrModel.read_mo_e. rewrite H. destruct bo; reflexivity.
Qed.
Lemma head_reads bo c n o t : head_ok bo c n o t -> read_mo_e c =
  match read_table_e bo n 0 (drop o c) with
  | inr (i, s) => ([], MFail (cannot_read (B "failed to read msg_id[%d] length & offset") [VInt (Z.of_N i)] s))
  | inl ids =>
      match read_table_e bo n 0 (drop t c) with
      | inr (i, s) => ([], MFail (cannot_read (B "failed to read msg_str[%d] length & offset") [VInt (Z.of_N i)] s))
      | inl strs => read_strings_e c 0 ids strs new_file
      end
  end.
Proof.
  intros (M & L & (ma & mi & V1 & V2 & V3 & V4) & Wn & Wo & Wt). rewrite (mo_order bo c M). unfold MoErrModel.read_with_e.
  assert (L' : (28 <= length c)%nat) by (unfold size in L; lia).
  apply (read_header_spec bo c) in L' as (h & -> & H1 & H2 & H3 & H4 & H5).
  rewrite (half_at_fun _ _ _ _ _ H1 V1), (half_at_fun _ _ _ _ _ H2 V2), (word_at_fun _ _ _ _ _ H3 Wn), (word_at_fun _ _ _ _ _ H4 Wo), (word_at_fun _ _ _ _ _ H5 Wt).
  replace (negb (ma =? 0) && negb (ma =? 1)) with false by lia. replace (negb (mi =? 0) && negb (mi =? 1)) with false by lia. reflexivity.
Qed.
Lemma tables_full bo c n o : has_table c o n -> exists ids, read_table_e bo n 0 (drop o c) = inl ids /\ n = N.of_nat (length ids) /\ pairs_at bo c o ids.
Proof.
  intros H. destruct (table_e_full bo c (N.to_nat n) o 0) as [l E]; [rewrite N2Nat.id; exact H|]. rewrite N2Nat.id in E. exists l.
  split; [exact E|]. apply table_e_some in E. apply read_table_spec in E. exact E.
Qed.
Theorem fault_error c m r : fault c m r -> snd (read_mo_e c) = MFail (error_of m r).
Proof.
  intros F. destruct F as [Sz|v W N1 N2|bo W Sz|bo v W Sz Hv V|bo u v W Sz Hu U Hv V|bo n o t i H C|bo n o t i H T C
    |bo n o t i l off H T1 T2 I G R NF|bo n o t i l off H T1 T2 I G G2 R NF].
  - unfold MoErrModel.read_mo_e. rewrite magic_short by exact Sz. cbn [snd]. f_equal. rewrite cannot_plain by (left; reflexivity).
    f_equal. rewrite <- why_missing, drop_0. reflexivity.
  - unfold MoErrModel.read_mo_e. rewrite (proj2 (magic_le c v) W). destruct (N.eqb_spec v mo_magic_big) as [E|E].
    { exfalso. apply N2. apply (order_word BE c). cbn [mword]. rewrite <- E. apply magic_le, W. }
    destruct (N.eqb_spec v mo_magic) as [E'|E']; [destruct (N1 E')|]. cbn [snd]. f_equal. apply (bad_value_eq (B "invalid magic number: ")). left. reflexivity.
  - rewrite (mo_order bo c W). unfold MoErrModel.read_with_e, read_header.
    rewrite (proj2 (take_none (drop 4 c) 24)); [|rewrite drop_length; lia]. cbn [snd]. f_equal. rewrite cannot_plain by (right; left; reflexivity).
    f_equal. apply why_missing.
  - rewrite (mo_order bo c W). unfold MoErrModel.read_with_e. assert (L' : (28 <= length c)%nat) by (unfold size in Sz; lia).
    apply (read_header_spec bo c) in L' as (h & -> & H1 & H2 & H3 & H4 & H5). rewrite (half_at_fun _ _ _ _ _ H1 Hv).
    replace (negb (v =? 0) && negb (v =? 1)) with true by lia. cbn [snd]. f_equal. apply (bad_value_eq (B "unsopported major version: ")). right; left; reflexivity.
  - rewrite (mo_order bo c W). unfold MoErrModel.read_with_e. assert (L' : (28 <= length c)%nat) by (unfold size in Sz; lia).
    apply (read_header_spec bo c) in L' as (h & -> & H1 & H2 & H3 & H4 & H5). rewrite (half_at_fun _ _ _ _ _ H1 Hu), (half_at_fun _ _ _ _ _ H2 Hv).
    replace (negb (u =? 0) && negb (u =? 1)) with false by lia. replace (negb (v =? 0) && negb (v =? 1)) with true by lia.
    cbn [snd]. f_equal. apply (bad_value_eq (B "unsopported minor version: ")). right; right; left; reflexivity.
  - rewrite (head_reads _ _ _ _ _ H). destruct C as (C1 & C2 & C3).
    pose proof (table_e_cut bo c (N.to_nat i) o n 0) as E. rewrite !N2Nat.id in E. rewrite E by assumption. cbn [snd]. f_equal.
    rewrite (cannot_row (B "failed to read msg_id[", B "] length & offset")) by (right; right; left; reflexivity).
    rewrite why_missing. reflexivity.
  - rewrite (head_reads _ _ _ _ _ H). destruct (tables_full bo c n o T) as (ids & -> & _ & _). destruct C as (C1 & C2 & C3).
    pose proof (table_e_cut bo c (N.to_nat i) t n 0) as E. rewrite !N2Nat.id in E. rewrite E by assumption. cbn [snd]. f_equal.
    rewrite (cannot_row (B "failed to read msg_str[", B "] length & offset")) by (right; right; right; left; reflexivity).
    rewrite why_missing. reflexivity.
  - rewrite (head_reads _ _ _ _ _ H). destruct (tables_full bo c n o T1) as (ids & -> & L1 & P1). destruct (tables_full bo c n t T2) as (strs & -> & L2 & P2).
    destruct (nth_error ids (N.to_nat i)) as [[l' o']|] eqn:E; [|apply nth_error_None in E; lia].
    pose proof (pairs_row _ _ _ _ _ _ _ P1 E) as R'. rewrite N2Nat.id in R'. destruct (row_fun _ _ _ _ _ _ _ R R') as [<- <-].
    rewrite (strings_bad_id c (N.to_nat i) ids strs 0 new_file l off); [|lia| |exact E|exact NF].
    + rewrite N2Nat.id. f_equal. rewrite (cannot_row (B "failed to read msg_id[", B "]")) by (left; reflexivity). rewrite why_missing. reflexivity.
    + intros j a b Hj E1 E2. destruct (G (N.of_nat j) ltac:(lia)) as [G1 G2].
      split; [apply (pairs_good _ _ _ _ _ _ P1 E1), G1|apply (pairs_good _ _ _ _ _ _ P2 E2), G2].
  - rewrite (head_reads _ _ _ _ _ H). destruct (tables_full bo c n o T1) as (ids & -> & L1 & P1). destruct (tables_full bo c n t T2) as (strs & -> & L2 & P2).
    destruct (nth_error strs (N.to_nat i)) as [[l' o']|] eqn:E; [|apply nth_error_None in E; lia].
    pose proof (pairs_row _ _ _ _ _ _ _ P2 E) as R'. rewrite N2Nat.id in R'. destruct (row_fun _ _ _ _ _ _ _ R R') as [<- <-].
    rewrite (strings_bad_str c (N.to_nat i) ids strs 0 new_file l off); [|lia| | |exact E|exact NF].
    + rewrite N2Nat.id. f_equal. rewrite (cannot_row (B "failed to read msg_str[", B "]")) by (right; left; reflexivity). rewrite why_missing. reflexivity.
    + intros j a b Hj E1 E2. destruct (G (N.of_nat j) ltac:(lia)) as [G1 G3].
      split; [apply (pairs_good _ _ _ _ _ _ P1 E1), G1|apply (pairs_good _ _ _ _ _ _ P2 E2), G3].
    + intros a E1. pose proof (pairs_good _ _ _ _ _ _ P1 E1) as Q. rewrite N2Nat.id in Q. apply Q, G2.
Qed.
Theorem fault_or_fine c : (exists f, snd (read_mo_e c) = MOk f) \/ exists m r, fault c m r.
Proof.
  destruct (N.lt_ge_cases (size c) 4) as [S4|S4]; [right; do 2 eexists; apply F_no_magic, S4|].
  destruct (read_magic c) as [v|] eqn:M.
  2:{ exfalso. unfold read_magic in M. destruct (take 4 c) as [x|] eqn:E; [|apply take_none in E; unfold size in S4; lia].
      apply take_some in E as (r & _ & L). destruct x as [|b0 [|b1 [|b2 [|b3 [|? ?]]]]]; cbn [length] in L; try lia. discriminate. }
  destruct (N.eq_dec v 0x950412de) as [E1|E1]; [|destruct (N.eq_dec v mo_magic_big) as [E2|E2]].
  3:{ right. do 2 eexists. apply (F_magic c v); [apply magic_le, M|exact E1|]. intros W. apply order_word in W. cbn [mword] in W. congruence. }
  all: assert (W : exists bo, word_at bo c 0 0x950412de);
    [ first [exists LE; apply order_word; cbn [mword]; rewrite M, E1; reflexivity|exists BE; apply order_word; cbn [mword]; rewrite M, E2; reflexivity]
    | destruct W as [bo W]; clear M E1; try clear E2 ].
  all: destruct (N.lt_ge_cases (size c) 28) as [S28|S28]; [right; do 2 eexists; apply (F_no_header c bo W S28)|];
    assert (L' : (28 <= length c)%nat) by (unfold size in S28; lia);
    apply (read_header_spec bo c) in L' as (h & _ & H1 & H2 & H3 & H4 & H5);
    (destruct (N.lt_ge_cases 1 (h_major h)) as [V1|V1]; [right; do 2 eexists; apply (F_major c bo (h_major h)); assumption|]);
    (destruct (N.lt_ge_cases 1 (h_minor h)) as [V2|V2]; [right; do 2 eexists; apply (F_minor c bo (h_major h) (h_minor h)); assumption|]);
    assert (Hd : head_ok bo c (h_count h) (h_o h) (h_t h)) by (split; [exact W|split; [exact S28|split; [exists (h_major h), (h_minor h); auto|auto]]]);
    (destruct (table_dec c (h_o h) (h_count h)) as [T1|[i C]]; [|right; do 2 eexists; apply (F_id_row c bo _ _ _ i Hd C)]);
    (destruct (table_dec c (h_t h) (h_count h)) as [T2|[i C]]; [|right; do 2 eexists; apply (F_str_row c bo _ _ _ i Hd T1 C)]);
    destruct (tables_full bo c _ _ T1) as (ids & Q1 & L1 & P1); destruct (tables_full bo c _ _ T2) as (strs & Q2 & L2 & P2);
    rewrite (head_reads _ _ _ _ _ Hd), Q1, Q2;
    (destruct (strings_dec c ids strs ltac:(lia)) as [Al|(k & a & b & E1 & E2 & Al & [NF|[Fi NF]])]; [left; apply strings_fine; [lia|exact Al]| |]);
    assert (Hk : N.of_nat k < h_count h) by (assert (nth_error ids k <> None) as X by congruence; apply nth_error_Some in X; lia);
    right; do 2 eexists;
    [ apply (F_id c bo _ _ _ (N.of_nat k) (fst a) (snd a) Hd T1 T2 Hk)
    | apply (F_str c bo _ _ _ (N.of_nat k) (fst b) (snd b) Hd T1 T2 Hk) ].
  all: try exact NF.
  all: try (apply (pairs_row _ _ _ _ _ _ _ P1); rewrite E1; destruct a; reflexivity).
  all: try (apply (pairs_row _ _ _ _ _ _ _ P2); rewrite E2; destruct b; reflexivity).
  all: try (apply (pairs_good _ _ _ _ _ _ P1 E1); exact Fi).
  all: intros j Hj; assert (Hj' : (N.to_nat j < k)%nat) by lia;
    assert (X1 : nth_error ids (N.to_nat j) <> None) by (apply nth_error_Some; assert (nth_error ids k <> None) as X by congruence; apply nth_error_Some in X; lia);
    assert (X2 : nth_error strs (N.to_nat j) <> None) by (apply nth_error_Some; assert (nth_error strs k <> None) as X by congruence; apply nth_error_Some in X; lia);
    destruct (nth_error ids (N.to_nat j)) as [x|] eqn:J1; [|congruence]; destruct (nth_error strs (N.to_nat j)) as [y|] eqn:J2; [|congruence];
    destruct (Al _ _ _ Hj' J1 J2) as [G1 G2];
    pose proof (pairs_good _ _ _ _ _ _ P1 J1) as Z1; pose proof (pairs_good _ _ _ _ _ _ P2 J2) as Z2; rewrite N2Nat.id in Z1, Z2;
    split; [apply Z1, G1|apply Z2, G2].
Qed.
Theorem mo_error c x : snd (read_mo_e c) = MFail x <-> exists m r, fault c m r /\ x = error_of m r.
Proof.
  split.
  - intros H. destruct (fault_or_fine c) as [[f E]|(m & r & F)]; [congruence|]. exists m, r. split; [exact F|].
    apply fault_error in F. congruence.
  - intros (m & r & F & ->). apply fault_error, F.
Qed.
End ME.
