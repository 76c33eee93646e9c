(** Facts about the buffers the .mo reader asks for. *)
From Coq Require Import Lia ZifyBool ZifyNat ZifyN.
From Verif Require Import GoStr GoStrFacts GoFmt GoMap FileModel PoModel MoModel MoSpec MoFacts ErrModel MoErrModel MoErrSpec MoErrFacts.
Local Open Scope N_scope.

Definition total (l : list N) : N := fold_right N.add 0 l.
Lemma total_app a b : total (a ++ b) = total a + total b.
Proof. induction a as [|x a IH]; cbn [app total fold_right]; [reflexivity|]. fold (total (a ++ b)) (total a). lia. Qed.
Lemma total_le m l : (forall x, In x l -> x <= m) -> total l <= N.of_nat (length l) * m.
Proof.
  induction l as [|x l IH]; intros H; cbn [total fold_right length]; [lia|]. fold (total l).
  pose proof (H x (or_introl eq_refl)). assert (total l <= N.of_nat (length l) * m) by (apply IH; intros y Hy; apply H; right; exact Hy). lia.
Qed.
Lemma word_lt bo c p v : word_at bo c p v -> v < 2 ^ 32.
Proof.
  rewrite word_at_drop. intros (b0 & b1 & b2 & b3 & r & _ & ->).
  pose proof (code_lt b0). pose proof (code_lt b1). pose proof (code_lt b2). pose proof (code_lt b3). destruct bo; cbn [word32]; lia.
Qed.
Lemma pairs_lt bo c : forall ps p a, pairs_at bo c p ps -> In a ps -> fst a < 2 ^ 32.
Proof.
  induction ps as [|[l o] ps IH]; intros p a H I; [destruct I|]. cbn [pairs_at] in H. destruct H as (H1 & _ & H3).
  destruct I as [<-|I]; [apply (word_lt _ _ _ _ H1)|apply (IH _ _ H3 I)].
Qed.
Lemma pairs_inside bo c : forall ps p, ps <> [] -> pairs_at bo c p ps -> p + 8 * N.of_nat (length ps) <= size c.
Proof.
  induction ps as [|[l o] ps IH]; intros p N H; [congruence|]. cbn [pairs_at] in H. destruct H as (_ & H2 & H3).
  destruct ps as [|x ps].
  - apply word_at_drop in H2 as (b0 & b1 & b2 & b3 & r & D & _). pose proof (drop_length (p + 4) c) as L. rewrite D in L. cbn [length] in *. lia.
  - specialize (IH (p + 8) ltac:(discriminate) H3). cbn [length] in *. lia.
Qed.
Lemma read_str_le c lo s : read_str c lo = Some s -> fst lo <= size c.
Proof.
  destruct lo as [l o]. intros H. assert (F : fits c l o) by (apply read_str_fits; eauto). destruct F; cbn [fst]; lia.
Qed.

Section MM.
Context {A : Type}.
Variable print : spec -> arg (val A) -> bytes.
Variable as_int : arg (val A) -> option Z.
Variable extra : list (arg (val A)) -> bytes.
Variables err_read_mo eof unexpected_eof : err.
Variable next : nat.
Notation read_strings_e := (read_strings_e print as_int extra err_read_mo eof unexpected_eof next).
Notation read_with_e := (read_with_e print as_int extra err_read_mo eof unexpected_eof next).
Notation read_mo_e := (read_mo_e print as_int extra err_read_mo eof unexpected_eof next).

(** the requests: those that were filled, then at most one that was not *)
Definition modest (c : bytes) (n : nat) (q : list N) (r : mores_e) : Prop :=
  exists done open, q = done ++ open /\ (length q <= n)%nat
  /\ (forall x, In x done -> x <= size c) /\ (forall x, In x q -> x < 2 ^ 32)
  /\ (length open <= 1)%nat /\ (open <> [] <-> exists e, r = MFail e).
Lemma strings_modest c : forall ids strs i f, length ids = length strs ->
  (forall a, In a (ids ++ strs) -> fst a < 2 ^ 32) ->
  modest c (2 * length ids) (fst (read_strings_e c i ids strs f)) (snd (read_strings_e c i ids strs f)).
Proof.
  induction ids as [|a ids IH]; intros [|b strs] i f L H; try discriminate.
  - exists [], []. cbn. split; [reflexivity|]. repeat split; try lia; try tauto. intros [e [=]].
  - cbn [MoErrModel.read_strings_e].
    assert (Ha : fst a < 2 ^ 32) by (apply H; left; reflexivity).
    assert (Hb : fst b < 2 ^ 32) by (apply H, in_or_app; right; left; reflexivity).
    destruct (read_str c a) as [s1|] eqn:E1.
    2:{ exists [], [fst a]. cbn [fst snd app length In]. repeat split; try lia; try (intros; intuition lia); eauto. discriminate. }
    destruct (read_str c b) as [s2|] eqn:E2.
    2:{ exists [fst a], [fst b]. cbn [fst snd app length In]. apply read_str_le in E1. repeat split; try lia; try (intros; intuition lia); eauto. discriminate. }
    specialize (IH strs (i + 1) (add_entry f (mo_entry s1 s2))). cbn [length] in L. assert (L' : length ids = length strs) by lia.
    specialize (IH L'). destruct (read_strings_e c (i + 1) ids strs (add_entry f (mo_entry s1 s2))) as [q r]. cbn [fst snd] in *.
    destruct IH as (d & o & Q & Ln & H1 & H2 & H3 & H4).
    { intros x Hx. apply H. apply in_app_or in Hx as [Hx|Hx]; [right; apply in_or_app; left; exact Hx|].
      right. apply in_or_app. right. right. exact Hx. }
    exists (fst a :: fst b :: d), o. rewrite Q in *. cbn [app length]. split; [reflexivity|]. split; [lia|].
    apply read_str_le in E1, E2. split; [intros x [<-|[<-|X]]; auto|]. split; [intros x [<-|[<-|X]]; auto|]. auto.
Qed.
Theorem mo_modest c : modest c (N.to_nat (size c / 4)) (fst (read_mo_e c)) (snd (read_mo_e c))
  \/ fst (read_mo_e c) = [].
Proof.
  unfold MoErrModel.read_mo_e. destruct (read_magic c) as [m|]; [|right; reflexivity].
  assert (W : forall bo, modest c (N.to_nat (size c / 4)) (fst (read_with_e bo c)) (snd (read_with_e bo c)) \/ fst (read_with_e bo c) = []).
  { intros bo. unfold MoErrModel.read_with_e. destruct (read_header bo c) as [h|]; [|right; reflexivity].
    destruct (_ && _); [right; reflexivity|]. destruct (_ && _); [right; reflexivity|].
    destruct (read_table_e bo (h_count h) 0 (drop (h_o h) c)) as [ids|[i s]] eqn:E1; [|right; reflexivity].
    destruct (read_table_e bo (h_count h) 0 (drop (h_t h) c)) as [strs|[i s]] eqn:E2; [|right; reflexivity].
    apply table_e_some in E1, E2. apply read_table_spec in E1 as [N1 P1], E2 as [N2 P2].
    left. pose proof (strings_modest c ids strs 0 new_file ltac:(lia)) as M.
    destruct M as (d & o & Q & Ln & R).
    { intros a Ia. apply in_app_or in Ia as [Ia|Ia]; [apply (pairs_lt _ _ _ _ _ P1 Ia)|apply (pairs_lt _ _ _ _ _ P2 Ia)]. }
    exists d, o. split; [exact Q|]. split; [|exact R].
    assert (B : 8 * N.of_nat (length ids) <= size c).
    { destruct ids as [|x ids]; [cbn [length]; lia|]. assert (NE : x :: ids <> []) by discriminate. pose proof (pairs_inside _ _ _ _ NE P1). lia. }
    pose proof (N.div_mod (size c) 4 ltac:(lia)). pose proof (N.mod_lt (size c) 4 ltac:(lia)). lia. }
  destruct (m =? mo_magic_big); [apply W|]. destruct (m =? mo_magic); [apply W|right; reflexivity].
Qed.

(** ** A file whose strings are all the whole file *)
Definition words (l : list N) : bytes := concat (map (put32 LE) l).
Lemma words_len l : len (words l) = 4 * N.of_nat (length l).
Proof. induction l as [|x l IH]; [reflexivity|]. unfold words in *. cbn [map concat length]. rewrite len_app, len_put. lia. Qed.
Lemma words_app a b : words (a ++ b) = words a ++ words b.
Proof. unfold words. rewrite map_app, concat_app. reflexivity. Qed.
Lemma words_at a v b : v < 2 ^ 32 -> word_at LE (words (a ++ v :: b)) (4 * N.of_nat (length a)) v.
Proof. intros H. rewrite words_app, <- words_len. apply (word_at_put LE (words a) v (words b) H). Qed.
Fixpoint rows (n : nat) (l o : N) : list N := match n with O => [] | S n => l :: o :: rows n l o end.
Lemma rows_len n l o : length (rows n l o) = (2 * n)%nat.
Proof. induction n; cbn [rows length]; lia. Qed.
Lemma rows_pairs l o : l < 2 ^ 32 -> o < 2 ^ 32 -> forall n pre,
  pairs_at LE (words (pre ++ rows n l o)) (4 * N.of_nat (length pre)) (repeat (l, o) n).
Proof.
  intros Hl Ho. induction n as [|n IH]; intros pre; cbn [rows repeat pairs_at]; [exact I|]. split; [apply words_at, Hl|]. split.
  - replace (4 * N.of_nat (length pre) + 4) with (4 * N.of_nat (length (pre ++ [l]))) by (rewrite app_length; cbn [length]; lia).
    replace (pre ++ l :: o :: rows n l o) with ((pre ++ [l]) ++ o :: rows n l o) by (rewrite <- app_assoc; reflexivity). apply words_at, Ho.
  - replace (4 * N.of_nat (length pre) + 8) with (4 * N.of_nat (length (pre ++ [l; o]))) by (rewrite app_length; cbn [length]; lia).
    replace (pre ++ l :: o :: rows n l o) with ((pre ++ [l; o]) ++ rows n l o) by (rewrite <- app_assoc; reflexivity). apply IH.
Qed.
Definition heavy (n : nat) : bytes :=
  words ([0x950412de; 0; N.of_nat n; 28; 28; 0; 0] ++ rows n (28 + 8 * N.of_nat n) 0).
Lemma heavy_size n : size (heavy n) = 28 + 8 * N.of_nat n.
Proof. unfold heavy. change (size ?x) with (len x). rewrite words_len, app_length, rows_len. cbn [length]. lia. Qed.
Lemma heavy_head n : 28 + 8 * N.of_nat n < 2 ^ 32 -> head_ok LE (heavy n) (N.of_nat n) 28 28.
Proof.
  intros H. set (rs := rows n (28 + 8 * N.of_nat n) 0).
  assert (W : forall a v b, [0x950412de; 0; N.of_nat n; 28; 28; 0; 0] = a ++ v :: b -> v < 2 ^ 32 ->
    word_at LE (heavy n) (4 * N.of_nat (length a)) v).
  { intros a v b E Hv. unfold heavy. fold rs. rewrite E, <- app_assoc. cbn [app]. apply words_at, Hv. }
  split; [apply (W [] 0x950412de _ eq_refl); lia|]. split; [rewrite heavy_size; lia|]. split.
  - assert (V := W [0x950412de] 0 _ eq_refl ltac:(lia)). change (4 * N.of_nat (length [0x950412de])) with 4 in V.
    apply word_at_drop in V as (b0 & b1 & b2 & b3 & r & D & E).
    pose proof (code_lt b0). pose proof (code_lt b1). pose proof (code_lt b2). pose proof (code_lt b3). cbn [word32] in E.
    exists (word16 LE b0 b1), (word16 LE b2 b3). rewrite !half_at_drop. cbn [word16]. split; [exists b0, b1, (b2 :: b3 :: r); auto|].
    split; [|lia]. exists b2, b3, r. split; [|reflexivity]. change 6 with (4 + 2). rewrite <- drop_drop, D. reflexivity.
  - split; [apply (W [0x950412de; 0] (N.of_nat n) _ eq_refl); lia|]. split; [apply (W [0x950412de; 0; N.of_nat n] 28 _ eq_refl); lia|].
    apply (W [0x950412de; 0; N.of_nat n; 28] 28 _ eq_refl). lia.
Qed.
Lemma repeat_strings c l o : fits c l o -> forall n i f, exists g,
  read_strings_e c i (repeat (l, o) n) (repeat (l, o) n) f = (repeat l (2 * n), MOk g).
Proof.
  intros F. pose proof F as F'. apply read_str_fits in F' as [s E]. induction n as [|n IH]; intros i f; [eexists; reflexivity|].
  cbn [repeat MoErrModel.read_strings_e]. rewrite E. destruct (IH (i + 1) (add_entry f (mo_entry s s))) as [g ->]. exists g. cbn [fst].
  replace (2 * S n)%nat with (S (S (2 * n))) by lia. reflexivity.
Qed.
Theorem heavy_reads n : 28 + 8 * N.of_nat n < 2 ^ 32 -> exists g, read_mo_e (heavy n) = (repeat (size (heavy n)) (2 * n), MOk g).
Proof.
  intros H. rewrite (head_reads _ _ _ _ _ _ _ _ _ _ _ _ (heavy_head n H)).
  assert (P : read_table_e LE (N.of_nat n) 0 (drop 28 (heavy n)) = inl (repeat (28 + 8 * N.of_nat n, 0) n)).
  { apply table_e_some. apply read_table_spec. split; [rewrite repeat_length; reflexivity|].
    apply (rows_pairs (28 + 8 * N.of_nat n) 0 H ltac:(lia) n [0x950412de; 0; N.of_nat n; 28; 28; 0; 0]). }
  rewrite P. rewrite heavy_size. apply repeat_strings. right. rewrite heavy_size. lia.
Qed.
End MM.
