(** The stack walk computes the value of the tree; the fast path agrees with the
    general evaluator. *)
From Verif Require Import GoStr GoStrFacts PluralModel PluralSpec PluralLexFacts PluralParseFacts.
From Coq Require Import Lia ZifyBool ZifyNat ZifyN.
Ltac Zify.zify_post_hook ::= Z.div_mod_to_equations.
Local Open Scope Z_scope.

(** ** Operators *)
Lemma int64_range v : int64 v <-> int64_min <= v <= int64_max.
Proof. unfold int64, int64_min, int64_max. lia. Qed.
Lemma wraps_wrap64 z : wraps z (wrap64 z).
Proof.
  split.
  - apply int64_range, wrap64_range.
  - exists (- ((z + 2 ^ 63) / 2 ^ 64)). unfold wrap64.
    pose proof (Z.div_mod (z + 2 ^ 63) (2 ^ 64) ltac:(lia)). lia.
Qed.
Lemma wraps_fun z v v' : wraps z v -> wraps z v' -> v = v'.
Proof. unfold wraps, int64. intros [H [k ->]] [H' [k' ->]]. lia. Qed.
Lemma truth_b2z P b : (b = true <-> P) -> truth P (b2z b).
Proof.
  intros H. destruct b; [left|right]; split; try reflexivity; [apply H; reflexivity|].
  intros HP. apply H in HP. discriminate.
Qed.
Lemma truth_fun P v v' : truth P v -> truth P v' -> v = v'.
Proof. intros [[H ->]|[H ->]] [[H' ->]|[H' ->]]; tauto. Qed.
Lemma b2z_int64 b : int64 (b2z b).
Proof. unfold int64. destruct b; cbn; lia. Qed.
Lemma truth_int64 P v : truth P v -> int64 v.
Proof. unfold int64. intros [[_ ->]|[_ ->]]; lia. Qed.

Lemma testbit_high v : int64 v -> forall i, 63 <= i -> Z.testbit v i = (v <? 0).
Proof.
  unfold int64. intros H i Hi. destruct (Z.ltb_spec v 0) as [L|L].
  - rewrite <- (Z.lnot_involutive v), Z.lnot_spec by lia.
    assert (Hv : 0 <= Z.lnot v < 2 ^ 63) by (unfold Z.lnot; lia).
    destruct (Z.eq_dec (Z.lnot v) 0) as [->|Hn]; [rewrite Z.bits_0; reflexivity|].
    rewrite Z.bits_above_log2; [reflexivity|lia|].
    assert (Z.log2 (Z.lnot v) < 63) by (apply Z.log2_lt_pow2; lia). lia.
  - destruct (Z.eq_dec v 0) as [->|Hn]; [apply Z.bits_0|].
    rewrite Z.bits_above_log2; [reflexivity|lia|].
    assert (Z.log2 v < 63) by (apply Z.log2_lt_pow2; lia). lia.
Qed.
Lemma int64_of_high v : (forall i, 63 <= i -> Z.testbit v i = Z.testbit v 63) -> int64 v.
Proof.
  intros H. unfold int64.
  assert (E : Z.shiftr v 63 = 0 \/ Z.shiftr v 63 = -1).
  { destruct (Z.testbit v 63) eqn:B.
    - right. apply Z.bits_inj'. intros i Hi. rewrite Z.shiftr_spec, Z.bits_m1 by lia. apply H. lia.
    - left. apply Z.bits_inj'. intros i Hi. rewrite Z.shiftr_spec, Z.bits_0 by lia. apply H. lia. }
  rewrite Z.shiftr_div_pow2 in E by lia.
  change (2 ^ 63) with 9223372036854775808 in *. lia.
Qed.
Lemma bitwise_int64 op l r v : int64 l -> int64 r -> bitwise op l r v -> int64 v.
Proof.
  intros Hl Hr H. apply int64_of_high. intros i Hi. rewrite !H by lia.
  rewrite !(testbit_high l Hl), !(testbit_high r Hr) by lia. reflexivity.
Qed.
Lemma bitwise_fun op l r v v' : bitwise op l r v -> bitwise op l r v' -> v = v'.
Proof. intros H H'. apply Z.bits_inj'. intros i Hi. rewrite H, H' by lia. reflexivity. Qed.

Lemma quot_rem_spec l r : r <> 0 -> quot_rem l r (Z.quot l r) (Z.rem l r).
Proof.
  intros H. unfold quot_rem. pose proof (Z.quot_rem' l r).
  pose proof (Z.rem_bound_abs l r H). pose proof (Z.rem_sign_mul l r H).
  repeat split; try lia.
Qed.
Lemma mul_lt_abs x r : Z.abs (x * r) < Z.abs r -> x = 0.
Proof.
  intros H. rewrite Z.abs_mul in H. destruct (Z.eq_dec x 0) as [E|E]; [exact E|].
  exfalso. assert (1 <= Z.abs x) by lia. nia.
Qed.
Lemma quot_rem_fun l r q m q' m' :
  quot_rem l r q m -> quot_rem l r q' m' -> q = q' /\ m = m'.
Proof.
  unfold quot_rem. intros (H1 & H2 & H3) (H1' & H2' & H3').
  destruct (Z.eq_dec l 0) as [E|E].
  - assert (q = 0) by (apply (mul_lt_abs q r); lia).
    assert (q' = 0) by (apply (mul_lt_abs q' r); lia). subst q q'. lia.
  - assert (S : 0 < l /\ 0 <= m /\ 0 <= m' \/ l < 0 /\ m <= 0 /\ m' <= 0).
    { destruct (Z.lt_ge_cases 0 l) as [L|L]; [left|right].
      - repeat split; [exact L| |]; nia.
      - repeat split; [lia| |]; nia. }
    assert (D : (q - q') * r = m' - m) by lia.
    assert (q - q' = 0) by (apply (mul_lt_abs _ r); lia).
    assert (q = q') by lia. subst q'. split; [reflexivity|lia].
Qed.

Lemma go_shr_spec l r v : int64 l -> go_shr l r = Some v ->
  0 <= r /\ v * 2 ^ r <= l < (v + 1) * 2 ^ r /\ int64 v.
Proof.
  unfold int64, go_shr. intros Hl.
  destruct (Z.ltb_spec r 0) as [L|L]; [discriminate|].
  destruct (Z.leb_spec 64 r) as [L'|L'].
  - assert (P : 2 ^ 64 <= 2 ^ r) by (apply Z.pow_le_mono_r; lia).
    destruct (Z.ltb_spec l 0); intros [= <-]; repeat split; try lia.
  - intros [= <-]. rewrite Z.shiftr_div_pow2 by lia.
    pose proof (Z.pow_pos_nonneg 2 r ltac:(lia) L) as P.
    pose proof (Z.div_mod l (2 ^ r) ltac:(lia)) as D.
    pose proof (Z.mod_pos_bound l (2 ^ r) P) as M.
    remember (2 ^ r) as p eqn:Ep. remember (l / p) as q eqn:Eq. remember (l mod p) as m eqn:Em.
    clear Ep Eq Em.
    repeat split; try lia; nia.
Qed.
Lemma go_shl_spec l r v : go_shl l r = Some v -> 0 <= r /\ wraps (l * 2 ^ r) v.
Proof.
  unfold go_shl.
  destruct (Z.ltb_spec r 0) as [L|L]; [discriminate|].
  destruct (Z.leb_spec 64 r) as [L'|L'].
  - intros [= <-]. split; [exact L|]. split; [unfold int64; lia|].
    exists (- (l * 2 ^ (r - 64))).
    replace r with ((r - 64) + 64) at 1 by lia. rewrite Z.pow_add_r by lia. lia.
  - intros [= <-]. split; [exact L|]. rewrite Z.shiftl_mul_pow2 by lia. apply wraps_wrap64.
Qed.
Lemma shr_fun l r v v' : 0 <= r ->
  v * 2 ^ r <= l < (v + 1) * 2 ^ r -> v' * 2 ^ r <= l < (v' + 1) * 2 ^ r -> v = v'.
Proof.
  intros Hr H H'. pose proof (Z.pow_pos_nonneg 2 r ltac:(lia) Hr) as P.
  remember (2 ^ r) as p eqn:Ep. clear Ep. nia.
Qed.

Lemma pre_val_fun o x v v' : pre_val o x v -> pre_val o x v' -> v = v'.
Proof.
  intros H H'. inversion H; subst; inversion H'; subst; auto;
    eauto using wraps_fun, truth_fun.
Qed.
Lemma post_val_fun o x v v' : post_val o x v -> post_val o x v' -> v = v'.
Proof. intros H H'. inversion H; subst; inversion H'; subst; eauto using wraps_fun. Qed.
Lemma bin_val_fun o x y v v' : bin_val o x y v -> bin_val o x y v' -> v = v'.
Proof.
  intros H H'. inversion H; subst; inversion H'; subst;
    eauto using wraps_fun, truth_fun, bitwise_fun, shr_fun;
    match goal with
    | A : quot_rem _ _ _ _, B : quot_rem _ _ _ _ |- _ =>
        destruct (quot_rem_fun _ _ _ _ _ _ A B) as [E1 E2]; subst
    end; eauto using wraps_fun.
Qed.

(** The value of a tree is unique. *)
Theorem val_fun n e v v' : val n e v -> val n e v' -> v = v'.
Proof.
  intros H; revert v'; induction H; intros v' H'; inversion H'; subst; auto.
  - match goal with A : post_val _ _ v |- _ => idtac end.
    match goal with A : val n e ?y |- _ => rewrite <- (IHval _ A) in * end.
    eauto using post_val_fun.
  - match goal with A : val n e ?y |- _ => rewrite <- (IHval _ A) in * end.
    eauto using pre_val_fun.
  - match goal with A : val n a ?y |- _ => rewrite <- (IHval1 _ A) in * end.
    match goal with A : val n b ?y |- _ => rewrite <- (IHval2 _ A) in * end.
    eauto using bin_val_fun.
  - match goal with A : val n a ?y, B : ?y <> 1 |- _ => specialize (IHval1 _ A); congruence end.
  - match goal with A : val n a 1 |- _ => specialize (IHval1 _ A); congruence end.
Qed.

(** ** Literals *)
Lemma numeral_nonneg ds : (forall c, In c ds -> (48 <= code c <= 57)%N) -> 0 <= numeral ds.
Proof.
  induction ds as [|c t IH]; cbn [numeral]; intros H; [lia|].
  assert (0 <= numeral t) by (apply IH; intros x Hx; apply H; right; exact Hx).
  assert (48 <= code c <= 57)%N by (apply H; left; reflexivity).
  pose proof (Z.pow_nonneg 10 (Z.of_nat (length t)) ltac:(lia)). nia.
Qed.
Lemma digits_val_numeral ds acc : (forall c, In c ds -> (48 <= code c <= 57)%N) ->
  exists v, digits_val acc ds = Some v
            /\ Z.of_N v = Z.of_N acc * 10 ^ Z.of_nat (length ds) + numeral ds.
Proof.
  revert acc; induction ds as [|c t IH]; intros acc H; cbn [digits_val numeral].
  - exists acc. split; [reflexivity|]. cbn. lia.
  - assert (Hc : (48 <= code c <= 57)%N) by (apply H; left; reflexivity).
    rewrite (proj2 (is_digit_range c) Hc).
    destruct (IH (acc * 10 + (code c - 48))%N) as (v & -> & Hv); [intros x Hx; apply H; right; exact Hx|].
    exists v. split; [reflexivity|]. rewrite Hv.
    cbn [length]. rewrite Nat2Z.inj_succ, Z.pow_succ_r by lia.
    pose proof (Z.pow_nonneg 10 (Z.of_nat (length t)) ltac:(lia)).
    remember (10 ^ Z.of_nat (length t)) as p. nia.
Qed.
Lemma parse_int_numeral ds : tok_ok (KInt ds) ->
  parse_int ds = if numeral ds <? 2 ^ 63 then Some (numeral ds) else None.
Proof.
  intros [Hne Hd]. unfold parse_int. destruct ds as [|c t]; [congruence|].
  assert (Hc : (48 <= code c <= 57)%N) by (apply Hd; left; reflexivity).
  assert (N1 : Ascii.eqb c "-" = false) by (apply Ascii.eqb_neq; intros ->; cbn in Hc; lia).
  assert (N2 : Ascii.eqb c "+" = false) by (apply Ascii.eqb_neq; intros ->; cbn in Hc; lia).
  rewrite N1, N2. cbn [orb].
  destruct (digits_val_numeral (c :: t) 0%N Hd) as (v & -> & Hv).
  cbn [Z.of_N] in Hv. rewrite Z.mul_0_l, Z.add_0_l in Hv. rewrite Hv.
  pose proof (numeral_nonneg _ Hd) as Hn. unfold in_int64, int64_min, int64_max.
  destruct (Z.leb_spec (- 2 ^ 63) (numeral (c :: t))); [|lia].
  destruct (Z.leb_spec (numeral (c :: t)) (2 ^ 63 - 1)), (Z.ltb_spec (numeral (c :: t)) (2 ^ 63));
    reflexivity || lia.
Qed.

(** ** The walk *)
Lemma bop_value_spec o l r : int64 l -> int64 r ->
  match bop_value o l r with
  | Some v => bin_val o l r v /\ int64 v
  | None => (o = BDiv \/ o = BMod) /\ r = 0 \/ (o = BShr \/ o = BShl) /\ r < 0
  end.
Proof.
  intros Hl Hr.
  assert (W : forall z, int64 (wrap64 z)) by (intros; apply int64_range, wrap64_range).
  destruct o; cbn [bop_value]; try (split; [constructor; apply wraps_wrap64|apply W]).
  - unfold go_div. destruct (Z.eqb_spec r 0); [tauto|]. split; [|apply W].
    eapply BV_div; [apply quot_rem_spec; assumption|apply wraps_wrap64].
  - unfold go_mod. destruct (Z.eqb_spec r 0); [tauto|].
    pose proof (quot_rem_spec l r ltac:(assumption)) as Q. split; [eapply BV_mod; exact Q|].
    unfold quot_rem in Q. unfold int64 in *.
    destruct (Z.eq_dec r (- 2 ^ 63)) as [->|]; [|lia].
    destruct Q as (_ & Q1 & Q2). nia.
  - destruct (go_shr l r) as [v|] eqn:E.
    + apply go_shr_spec in E as (H1 & H2 & H3); [|exact Hl]. split; [constructor; assumption|exact H3].
    + unfold go_shr in E. destruct (Z.ltb_spec r 0); [tauto|]. destruct (64 <=? r); discriminate.
  - destruct (go_shl l r) as [v|] eqn:E.
    + apply go_shl_spec in E as (H1 & H2). split; [constructor; assumption|apply H2].
    + unfold go_shl in E. destruct (Z.ltb_spec r 0); [tauto|]. destruct (64 <=? r); discriminate.
  - split; [constructor; apply truth_b2z; lia|apply b2z_int64].
  - split; [constructor; apply truth_b2z; lia|apply b2z_int64].
  - split; [constructor; apply truth_b2z; lia|apply b2z_int64].
  - split; [constructor; apply truth_b2z; lia|apply b2z_int64].
  - split; [constructor; apply truth_b2z; lia|apply b2z_int64].
  - split; [constructor; apply truth_b2z; lia|apply b2z_int64].
  - assert (Bw : bitwise andb l r (Z.land l r)) by (intros i Hi; apply Z.land_spec).
    split; [apply BV_and; exact Bw|exact (bitwise_int64 _ _ _ _ Hl Hr Bw)].
  - assert (Bw : bitwise andb l r (Z.land l r)) by (intros i Hi; apply Z.land_spec).
    split; [apply BV_xor; exact Bw|exact (bitwise_int64 _ _ _ _ Hl Hr Bw)].
  - assert (Bw : bitwise orb l r (Z.lor l r)) by (intros i Hi; apply Z.lor_spec).
    split; [apply BV_or; exact Bw|exact (bitwise_int64 _ _ _ _ Hl Hr Bw)].
  - split; [constructor; apply truth_b2z; unfold is_TRUE; lia|apply b2z_int64].
  - split; [constructor; apply truth_b2z; unfold is_TRUE; lia|apply b2z_int64].
Qed.

(** Every tree either has a value, which the walk leaves on top of the
    otherwise unchanged stack, or faults, and then the walk panics. *)
Theorem walk_spec n e : int64 n -> lits_ok e ->
  (exists v, val n e v /\ int64 v /\ forall st, walk n e st = Some (v :: st))
  \/ (faults n e /\ forall st, walk n e st = None).
Proof.
  intros Hn.
  assert (W : forall z, int64 (wrap64 z)) by (intros; apply int64_range, wrap64_range).
  induction e as [ds| |e IH|o e IH|o e IH|o a IHa b IHb|a IHa b IHb c IHc]; cbn [lits_ok]; intros L.
  - cbn [walk]. rewrite (parse_int_numeral ds L). pose proof (numeral_nonneg ds (proj2 L)).
    destruct (Z.ltb_spec (numeral ds) (2 ^ 63)).
    + left. exists (numeral ds). repeat split; [constructor; assumption|lia|assumption].
    + right. split; [constructor; assumption|reflexivity].
  - left. exists n. repeat split; [constructor|apply Hn|apply Hn].
  - destruct (IH L) as [(v & H1 & H2 & H3)|[H1 H2]].
    + left. exists v. repeat split; [constructor; exact H1|apply H2|apply H2|exact H3].
    + right. split; [constructor; exact H1|exact H2].
  - destruct (IH L) as [(v & H1 & H2 & H3)|[H1 H2]].
    + left. exists (wrap64 (match o with QInc => v + 1 | QDec => v - 1 end)).
      split; [|split; [apply W|]].
      * eapply V_post; [exact H1|]. destruct o; constructor; apply wraps_wrap64.
      * intros st. cbn [walk]. rewrite H3. reflexivity.
    + right. split; [constructor; exact H1|]. intros st. cbn [walk]. rewrite H2. reflexivity.
  - destruct (IH L) as [(v & H1 & H2 & H3)|[H1 H2]].
    + left. destruct (handle_prefix o [v]) as [|u [|? ?]] eqn:E; try (destruct o; discriminate E).
      exists u. split; [|split].
      * eapply V_pre; [exact H1|].
        destruct o; cbn in E; injection E as <-.
        -- apply PV_plus.
        -- apply PV_minus, wraps_wrap64.
        -- apply PV_inc, wraps_wrap64.
        -- apply PV_dec, wraps_wrap64.
        -- replace (Z.lnot v) with (- v - 1) by (unfold Z.lnot; lia). apply PV_compl.
        -- apply PV_not, truth_b2z. unfold is_TRUE. lia.
      * destruct o; cbn in E; injection E as <-; try apply W; try exact H2.
        -- unfold int64, Z.lnot in *. lia.
        -- apply b2z_int64.
      * intros st. cbn [walk]. rewrite H3. destruct o; cbn in E |- *; injection E as <-; reflexivity.
    + right. split; [constructor; exact H1|]. intros st. cbn [walk]. rewrite H2. reflexivity.
  - destruct L as [La Lb].
    destruct (IHa La) as [(x & A1 & A2 & A3)|[A1 A2]].
    2:{ right. split; [apply F_bin_l, A1|]. intros st. cbn [walk]. rewrite A2. reflexivity. }
    destruct (IHb Lb) as [(y & B1 & B2 & B3)|[B1 B2]].
    2:{ right. split; [apply F_bin_r, B1|]. intros st. cbn [walk]. rewrite A3, B2. reflexivity. }
    pose proof (bop_value_spec o x y A2 B2) as S.
    destruct (bop_value o x y) as [v|] eqn:E.
    + left. exists v. destruct S as [S1 S2]. split; [eapply V_bin; eassumption|split; [exact S2|]].
      intros st. cbn [walk]. rewrite A3, B3. unfold handle_bop. cbn [pop]. rewrite E. reflexivity.
    + right. split.
      * destruct S as [[Ho ->]|[Ho Hy]]; [apply F_div; assumption|eapply F_sh; eassumption].
      * intros st. cbn [walk]. rewrite A3, B3. unfold handle_bop. cbn [pop]. rewrite E. reflexivity.
  - destruct L as (La & Lb & Lc).
    destruct (IHa La) as [(x & A1 & A2 & A3)|[A1 A2]].
    2:{ right. split; [apply F_cond_a, A1|]. intros st. cbn [walk]. rewrite A2. reflexivity. }
    destruct (IHb Lb) as [(y & B1 & B2 & B3)|[B1 B2]].
    2:{ right. split; [apply F_cond_b, B1|]. intros st. cbn [walk]. rewrite A3, B2. reflexivity. }
    destruct (IHc Lc) as [(z & C1 & C2 & C3)|[C1 C2]].
    2:{ right. split; [apply F_cond_c, C1|]. intros st. cbn [walk]. rewrite A3, B3, C2. reflexivity. }
    left. exists (if is_TRUE x then y else z). split; [|split].
    + unfold is_TRUE. destruct (Z.eqb_spec x 1) as [->|Hx].
      * eapply V_cond_t; eassumption.
      * eapply V_cond_f; eassumption.
    + destruct (is_TRUE x); assumption.
    + intros st. cbn [walk]. rewrite A3, B3, C3. reflexivity.
Qed.

Lemma val_not_faults n e v : int64 n -> lits_ok e -> val n e v -> ~ faults n e.
Proof.
  intros Hn. revert v. 
  induction e as [ds| |e IH|o e IH|o e IH|o a IHa b IHb|a IHa b IHb c IHc];
    cbn [lits_ok]; intros v L Hv Hf; inversion Hv; subst; inversion Hf; subst; try lia;
    try (eapply IH; eassumption).
  - eapply IHa; [apply L|eassumption|assumption].
  - eapply IHb; [apply L|eassumption|assumption].
  - match goal with A : val n b 0, A' : val n b ?y |- _ => rewrite (val_fun _ _ _ _ A' A) in * end.
    match goal with A : _ = BDiv \/ _ = BMod |- _ => destruct A; subst end;
    match goal with A : bin_val _ _ _ _ |- _ => inversion A; subst end;
    match goal with A : quot_rem _ _ _ _ |- _ => unfold quot_rem in A; lia end.
  - match goal with L : ?y < 0, A' : val n b ?y, A : val n b ?x |- _ =>
      assert (x = y) by exact (val_fun _ _ _ _ A A'); subst x end.
    match goal with A : _ = BShr \/ _ = BShl |- _ => destruct A; subst end;
    match goal with A : bin_val _ _ _ _ |- _ => inversion A; subst end; lia.
  - eapply IHa; [apply L|eassumption|assumption].
  - eapply IHb; [apply L|eassumption|assumption].
  - eapply IHc; [apply L|eassumption|assumption].
  - eapply IHa; [apply L|eassumption|assumption].
  - eapply IHb; [apply L|eassumption|assumption].
  - eapply IHc; [apply L|eassumption|assumption].
Qed.
