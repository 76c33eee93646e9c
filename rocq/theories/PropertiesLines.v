(** Property C28 for line numbers of any size: exactly which two of them are
    always written in the order of the numbers. *)
From Coq Require Import Lia Permutation ZifyBool ZifyNat ZifyN.
From Verif Require Import GoStr GoStrFacts GoMap FileModel PoModel SortFacts PropertiesPo.

(** the first text differs from the second at some byte, and is the smaller one there *)
Definition text_before (s t : bytes) : Prop :=
  exists p a b r1 r2, s = p ++ a :: r1 /\ t = p ++ b :: r2 /\ (code a < code b)%N.
Lemma text_before_bltb s t x y : text_before s t -> bltb (s ++ x) (t ++ y) = true.
Proof.
  intros (p & a & b & r1 & r2 & -> & -> & H). rewrite <- !app_assoc, bltb_common. cbn [app bltb]. destruct (N.ltb_spec (code a) (code b)); [reflexivity|lia].
Qed.
Lemma digits_tilde s : forall t x y, (forall c, In c t -> is_digit c = true) -> length s <= length t -> s <> t ->
  bltb (s ++ "~"%char :: x) (t ++ y) = true -> text_before s t.
Proof.
  induction s as [|a s IH]; intros [|b t] x y D L N H; cbn [length] in L; try (exfalso; lia).
  - congruence.
  - exfalso. cbn [app bltb] in H. pose proof (digit_bounds b (D b (or_introl eq_refl))) as Q. change (code "~"%char) with 126%N in H.
    destruct (N.ltb_spec 126 (code b)); [lia|]. destruct (N.ltb_spec (code b) 126); [discriminate|lia].
  - cbn [app bltb] in H. destruct (N.ltb_spec (code a) (code b)) as [Q|Q].
    + exists [], a, b, s, t. auto.
    + destruct (N.ltb_spec (code b) (code a)) as [Q'|Q']; [discriminate|]. assert (a = b) as <- by (apply code_inj; lia).
      destruct (IH t x y) as (p & a' & b' & r1 & r2 & -> & -> & H'); [intros c Hc; apply D; right; exact Hc|lia|congruence|exact H|].
      exists (a :: p), a', b', r1, r2. auto.
Qed.
Lemma dec_long k n : (10 ^ N.of_nat k <= n)%N -> k < length (dec n).
Proof.
  intros H. pose proof (digits_bound _ _ (dec_val n)) as Q. destruct (Nat.lt_ge_cases k (length (dec n))) as [L|L]; [exact L|].
  assert (10 ^ N.of_nat (length (dec n)) <= 10 ^ N.of_nat k)%N by (apply N.pow_le_mono_r; lia). lia.
Qed.
Lemma pad_long s : 10 <= length s -> pad10 s = s.
Proof. intros H. unfold pad10. replace (10 - length s) with 0 by lia. reflexivity. Qed.
Lemma sort_field_dec n : sort_field (dec n) = pad10 (dec n).
Proof.
  destruct (Z_le_gt_dec (Z.of_N n) int64_max) as [L|L].
  - unfold sort_field. rewrite parse_int_dec by exact L. f_equal. unfold dec_Z. destruct n; reflexivity.
  - unfold sort_field. rewrite pad_long.
    2:{ assert (9 < length (dec n)); [|lia]. apply dec_long. change (10 ^ N.of_nat 9)%N with 1000000000%N. unfold int64_max in L. lia. }
    pose proof (dec_val n) as V. pose proof (dec_digits n) as D. unfold parse_int. destruct (dec n) as [|c t] eqn:E; [reflexivity|].
    pose proof (digit_bounds c (D c (or_introl eq_refl))) as Q.
    destruct (Ascii.eqb_spec c "-") as [->|_]; [change (code "-"%char) with 45%N in Q; lia|].
    destruct (Ascii.eqb_spec c "+") as [->|_]; [change (code "+"%char) with 43%N in Q; lia|]. cbn [orb]. rewrite V. cbn [Z.of_N].
    unfold in_int64. replace (Z.of_N n <=? int64_max)%Z with false by lia. rewrite Bool.andb_false_r. reflexivity.
Qed.
Lemma refers_key e p n : refers e p n -> exists u, sort_key e = B "#:" ++ concat (map sort_field (fields p)) ++ pad10 (dec n) ++ u.
Proof.
  intros (I1 & pre & t & post & E & P & T). destruct (line_string_app e _ _ _ E P (has_prefix_app _ _)) as [u L].
  unfold sort_key, is_header. destruct (e_id e) as [|x i]; [congruence|]. cbn [is_empty]. rewrite L, line_string_fields, fields_sep by auto.
  rewrite map_app, concat_app. destruct (dec_no_sep n) as [N1 N2]. destruct T as [->|(x' & v & -> & Hx)].
  - rewrite (app_nil_r (dec n)), (fields_plain (dec n)) by assumption. cbn [map concat]. rewrite sort_field_dec, <- !app_assoc. eexists. reflexivity.
  - rewrite fields_sep by exact Hx. rewrite (fields_plain (dec n)) by assumption. cbn [app map concat]. rewrite sort_field_dec.
    eexists. rewrite <- !app_assoc. reflexivity.
Qed.

(** two entries that refer to lines [n1] and [n2] of the same file, [n1] smaller,
    are always in this order in what SortedEntry returns (and the writers write)
    if and only if [n1] has at most nine digits, or [n2] has at most ten, or [n1]
    is smaller as a text too, without being a beginning of [n2] *)
Theorem C28_exactly : forall n1 n2, (n1 < n2)%N ->
  ((forall f l e1 e2 p, sorted_entries f l -> refers e1 p n1 -> refers e2 p n2 -> In e1 l -> forall a b, l = a ++ e2 :: b -> In e1 a)
   <-> (n1 < 10 ^ 9)%N \/ (n2 < 10 ^ 10)%N \/ text_before (dec n1) (dec n2)).
Proof.
  intros n1 n2 H. split.
  - intros A. destruct (N.lt_ge_cases n1 (10 ^ 9)) as [L1|L1]; [left; exact L1|]. right.
    destruct (N.lt_ge_cases n2 (10 ^ 10)) as [L2|L2]; [left; exact L2|]. right.
    pose proof (dec_long 9 n1 L1) as D1. pose proof (dec_long 10 n2 L2) as D2.
    set (e1 := mk [B "#:a:" ++ dec n1] (B "~") (B "x") false [] (B "1") []).
    set (e2 := mk [B "#:a:" ++ dec n2] (B "~") (B "y") false [] (B "2") []).
    destruct (bltb (sort_key e1) (sort_key e2)) eqn:E.
    + assert (K : forall n i (s : bytes), sort_key (mk [B "#:a:" ++ dec n] (B "~") (B i) false [] s []) = B "#:a" ++ pad10 (dec n) ++ key (B "~") (B i)
                  \/ B i = []).
      { intros n i s. destruct (B i) as [|x r] eqn:Ei; [right; reflexivity|left]. unfold sort_key, is_header. cbn [mk e_id e_ctxt is_empty].
        unfold line_string. cbn [mk e_cmts map concat]. change (B "#:a:" ++ dec n) with (B "#:" ++ (B "a" ++ ":"%char :: dec n)).
        rewrite has_prefix_app, line_string_fields, fields_sep by auto. destruct (dec_no_sep n) as [N1 N2].
        rewrite (fields_plain (dec n)) by assumption. change (fields (B "a")) with [B "a"]. cbn [app map concat]. rewrite sort_field_dec, !app_nil_r.
        reflexivity. }
      destruct (K n1 "x"%string (B "1")) as [K1|K1]; [|discriminate]. destruct (K n2 "y"%string (B "2")) as [K2|K2]; [|discriminate].
      unfold e1, e2 in E. rewrite K1, K2, bltb_common, !pad_long in E by lia.
      apply (digits_tilde _ _ (skipn 1 (key (B "~") (B "x"))) (key (B "~") (B "y"))); [apply dec_digits|apply dec_len_mono, H| |exact E].
      intros Q. pose proof (dec_val n1) as V1. rewrite Q, dec_val in V1. injection V1 as V1. lia.
    + assert (R : forall n i s, B i <> [] -> refers (mk [B "#:a:" ++ dec n] (B "~") (B i) false [] s []) (B "a") n).
      { intros n i s Ni. split; [exact Ni|]. exists [], [], []. split; [rewrite app_nil_r; reflexivity|]. split; [intros x []|left; reflexivity]. }
      destruct (A (add_entry (add_entry new_file e1) e2) [e2; e1] e1 e2 (B "a")) with (a := @nil entry) (b := [e1]).
      * split; [apply perm_swap|]. split; [|split; [intros x []|exact I]]. intros x [<-|[]]. exact E.
      * apply R. discriminate.
      * apply R. discriminate.
      * right. left. reflexivity.
      * reflexivity.
  - intros A f l e1 e2 p [_ So] R1 R2 I1 a b E.
    assert (O : bltb (sort_key e1) (sort_key e2) = true).
    { destruct (N.lt_ge_cases n2 (10 ^ 10)) as [L2|L2]; [apply (refers_order e1 e2 p n1 n2); auto|].
      destruct (refers_key e1 p n1 R1) as (u1 & ->). destruct (refers_key e2 p n2 R2) as (u2 & ->). rewrite !bltb_common.
      pose proof (dec_long 10 n2 L2) as D2. rewrite (pad_long (dec n2)) by lia.
      destruct (N.lt_ge_cases n1 (10 ^ 9)) as [L1|L1].
      - pose proof (dec_len 8 n1 L1) as D1. unfold pad10. replace (10 - length (dec n1)) with (S (9 - length (dec n1))) by lia. cbn [repeat app].
        destruct (dec n2) as [|d t] eqn:Em; [cbn [length] in D2; lia|]. cbn [app bltb].
        assert (D : is_digit d = true) by (apply (dec_digits n2); rewrite Em; left; reflexivity).
        apply digit_bounds in D. change (code SP) with 32%N. destruct (N.ltb_spec 32 (code d)); [reflexivity|lia].
      - rewrite pad_long by (pose proof (dec_long 9 n1 L1); lia). apply text_before_bltb. destruct A as [A|[A|A]]; [lia|lia|exact A]. }
    pose proof (sorted_before l e1 e2 a b So O E) as NB. rewrite E in I1. apply in_app_or in I1 as [Q|[->|Q]]; [exact Q| |contradiction].
    rewrite bltb_irrefl in O. discriminate.
Qed.
Print Assumptions C28_exactly.
(** 9999999999 and 10000000000 are not in order, 1234567890 and 12345678901 need not
    be, 1000000001 and 99999999999 are *)
Example C28_exactly_case :
  ~ ((9999999999 < 10 ^ 9)%N \/ (10000000000 < 10 ^ 10)%N \/ text_before (dec 9999999999) (dec 10000000000))
  /\ text_before (dec 1000000001) (dec 99999999999).
Proof.
  split.
  - intros [H|[H|(p & a & b & r1 & r2 & E1 & E2 & H)]]; [vm_compute in H; discriminate..|]. vm_compute in E1. vm_compute in E2.
    destruct p as [|x p]; cbn [app] in *.
    + injection E1 as <- _. injection E2 as <- _. vm_compute in H. discriminate.
    + injection E1 as <- _. discriminate.
  - exists [], "1"%char, "9"%char, (B "000000001"), (B "9999999999"). repeat split; vm_compute; reflexivity.
Qed.
