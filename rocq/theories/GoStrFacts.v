(** Facts about the string functions of [GoStr]. *)
From Verif Require Import GoStr.
From Coq Require Import Lia ZifyBool ZifyNat ZifyN Permutation.
Ltac Zify.zify_post_hook ::= Z.div_mod_to_equations.

Lemma code_lt c : (code c < 256)%N.
Proof. apply N_ascii_bounded. Qed.
Lemma code_byte_of n : (n < 256)%N -> code (byte_of n) = n.
Proof. apply N_ascii_embedding. Qed.
Lemma byte_of_code c : byte_of (code c) = c.
Proof. apply ascii_N_embedding. Qed.
Lemma code_inj a b : code a = code b -> a = b.
Proof. intros H. rewrite <- (byte_of_code a), <- (byte_of_code b), H. reflexivity. Qed.

Lemma beq_eq a b : beq a b = true <-> a = b.
Proof.
  revert b; induction a as [|x a IH]; intros [|y b]; cbn [beq]; split; intros H;
    try discriminate; try reflexivity.
  - apply andb_true_iff in H as [H1 H2]. apply Ascii.eqb_eq in H1. apply IH in H2. congruence.
  - injection H as <- <-. rewrite Ascii.eqb_refl. apply IH. reflexivity.
Qed.
Lemma beq_refl a : beq a a = true.
Proof. apply beq_eq; reflexivity. Qed.
Lemma beq_neq a b : beq a b = false <-> a <> b.
Proof.
  destruct (beq a b) eqn:E; split; intros H; try discriminate; try reflexivity.
  - apply beq_eq in E. contradiction.
  - intros ->. rewrite beq_refl in E. discriminate.
Qed.
Lemma beq_spec a b : reflect (a = b) (beq a b).
Proof. destruct (beq a b) eqn:E; constructor; [apply beq_eq|apply beq_neq]; assumption. Qed.
Lemma bytes_dec (a b : bytes) : {a = b} + {a <> b}.
Proof. apply list_eq_dec, ascii_dec. Qed.

(** order *)
Lemma bltb_irrefl a : bltb a a = false.
Proof. induction a as [|x a IH]; cbn [bltb]; [reflexivity|]. rewrite N.ltb_irrefl. exact IH. Qed.
Lemma bltb_trans a b c : bltb a b = true -> bltb b c = true -> bltb a c = true.
Proof.
  revert b c; induction a as [|x a IH]; intros [|y b] [|z c]; cbn [bltb]; intros H1 H2;
    try discriminate; try reflexivity.
  destruct (N.ltb_spec (code x) (code y)), (N.ltb_spec (code y) (code z)),
    (N.ltb_spec (code x) (code z)), (N.ltb_spec (code y) (code x)),
    (N.ltb_spec (code z) (code y)), (N.ltb_spec (code z) (code x));
    try lia; try discriminate; try reflexivity.
  eapply IH; eassumption.
Qed.
Lemma bltb_trichotomy a b : bltb a b = false -> bltb b a = false -> a = b.
Proof.
  revert b; induction a as [|x a IH]; intros [|y b]; cbn [bltb]; intros H1 H2;
    try discriminate; try reflexivity.
  destruct (N.ltb_spec (code x) (code y)), (N.ltb_spec (code y) (code x));
    try lia; try discriminate.
  f_equal; [apply code_inj; lia | apply IH; assumption].
Qed.
Lemma bltb_asym a b : bltb a b = true -> bltb b a = false.
Proof.
  intros H. destruct (bltb b a) eqn:E; [|reflexivity].
  pose proof (bltb_trans _ _ _ H E) as C. rewrite bltb_irrefl in C. discriminate.
Qed.

(** prefixes *)
Lemma has_prefix_app p s : has_prefix p (p ++ s) = true.
Proof. induction p as [|x p IH]; cbn; [reflexivity|]. rewrite Ascii.eqb_refl. exact IH. Qed.
Lemma has_prefix_iff p s : has_prefix p s = true <-> exists t, s = p ++ t.
Proof.
  split.
  - revert s; induction p as [|x p IH]; intros s H; [exists s; reflexivity|].
    destruct s as [|y s]; [discriminate|]. cbn in H.
    apply andb_true_iff in H as [H1 H2]. apply Ascii.eqb_eq in H1 as ->.
    destruct (IH _ H2) as [t ->]. exists t. reflexivity.
  - intros [t ->]. apply has_prefix_app.
Qed.
Lemma trim_prefix_app p s : trim_prefix p (p ++ s) = s.
Proof.
  unfold trim_prefix. rewrite has_prefix_app, skipn_app, skipn_all, Nat.sub_diag. reflexivity.
Qed.
Lemma trim_prefix_no p s : has_prefix p s = false -> trim_prefix p s = s.
Proof. unfold trim_prefix; intros ->; reflexivity. Qed.

(** index *)
Lemma index_byte_none c s : index_byte c s = None <-> ~ In c s.
Proof.
  induction s as [|x t IH]; cbn [index_byte In]; [tauto|].
  destruct (Ascii.eqb_spec x c) as [->|Hn].
  - split; [discriminate|]. intros H; exfalso; apply H; left; reflexivity.
  - destruct (index_byte c t); cbn [option_map].
    + split; [discriminate|]. intros H. exfalso. apply H. right.
      destruct (in_dec ascii_dec c t) as [Hi|Hi]; [exact Hi|].
      destruct IH as [_ IH]. specialize (IH Hi). discriminate.
    + split; [|reflexivity]. intros _ [H|H]; [congruence|]. apply IH; auto.
Qed.
Lemma index_byte_some c s i :
  index_byte c s = Some i <->
  s = firstn i s ++ c :: skipn (S i) s /\ ~ In c (firstn i s) /\ i < length s.
Proof.
  revert i; induction s as [|x t IH]; intros i; cbn [index_byte].
  - split; [discriminate|]. intros (_ & _ & H). cbn in H. lia.
  - destruct (Ascii.eqb_spec x c) as [->|Hn].
    + split.
      * intros [= <-]. cbn. repeat split; auto; lia.
      * intros (H1 & H2 & H3). destruct i as [|i]; [reflexivity|].
        exfalso. apply H2. cbn. left; reflexivity.
    + split.
      * destruct (index_byte c t) as [j|] eqn:E; [|discriminate]. intros [= <-].
        destruct (proj1 (IH j) eq_refl) as (H1 & H2 & H3). cbn [firstn skipn app In length].
        repeat split; [f_equal; exact H1 | intros [H|H]; auto | lia].
      * intros (H1 & H2 & H3). destruct i as [|i].
        -- cbn in H1. injection H1 as H1. congruence.
        -- cbn [firstn skipn app] in H1. injection H1 as H1.
           assert (E : index_byte c t = Some i).
           { apply IH. repeat split; [exact H1| |cbn in H3; lia].
             intros H; apply H2; cbn; right; exact H. }
           rewrite E. reflexivity.
Qed.
Lemma index_byte_app c a b : ~ In c a -> index_byte c (a ++ c :: b) = Some (length a).
Proof.
  induction a as [|x a IH]; cbn; intros H.
  - rewrite Ascii.eqb_refl. reflexivity.
  - destruct (Ascii.eqb_spec x c) as [->|Hn]; [exfalso; apply H; left; reflexivity|].
    rewrite IH; [reflexivity|]. tauto.
Qed.
Lemma last_index_byte_none c s : last_index_byte c s = None <-> ~ In c s.
Proof.
  induction s as [|x t IH]; cbn [last_index_byte In]; [tauto|].
  destruct (last_index_byte c t) as [i|].
  - split; [discriminate|]. intros H. exfalso.
    destruct (in_dec ascii_dec c t) as [Hi|Hi]; [tauto|].
    destruct IH as [_ IH]. specialize (IH Hi). discriminate.
  - destruct (Ascii.eqb_spec x c) as [->|Hn].
    + split; [discriminate|]. tauto.
    + split; [|reflexivity]. intros _ [H|H]; [congruence|]. apply IH; auto.
Qed.
Lemma last_index_byte_some c s i :
  last_index_byte c s = Some i ->
  s = firstn i s ++ c :: skipn (S i) s /\ ~ In c (skipn (S i) s) /\ i < length s.
Proof.
  revert i; induction s as [|x t IH]; intros i; cbn [last_index_byte]; [discriminate|].
  destruct (last_index_byte c t) as [j|] eqn:E.
  - intros [= <-]. destruct (IH _ eq_refl) as (H1 & H2 & H3).
    cbn [firstn skipn app length]. repeat split; [f_equal; exact H1|exact H2|lia].
  - destruct (Ascii.eqb_spec x c) as [->|Hn]; [|discriminate]. intros [= <-].
    apply last_index_byte_none in E. cbn. repeat split; auto; lia.
Qed.
Lemma last_index_byte_app c a b : ~ In c b -> last_index_byte c (a ++ c :: b) = Some (length a).
Proof.
  intros H. induction a as [|x a IH]; cbn.
  - apply last_index_byte_none in H. rewrite H, Ascii.eqb_refl. reflexivity.
  - rewrite IH. reflexivity.
Qed.
Lemma contains_byte_iff c s : contains_byte c s = true <-> In c s.
Proof.
  unfold contains_byte. rewrite existsb_exists. split.
  - intros (x & Hx & E). apply Ascii.eqb_eq in E as <-. exact Hx.
  - intros H. exists c. split; [exact H|apply Ascii.eqb_refl].
Qed.
Lemma contains_byte_false c s : contains_byte c s = false <-> ~ In c s.
Proof.
  rewrite <- contains_byte_iff. destruct (contains_byte c s); split; intros H; auto; try discriminate.
  exfalso; apply H; reflexivity.
Qed.

(** split and join *)
Lemma split_byte_nonempty c s : split_byte c s <> [].
Proof.
  destruct s as [|x t]; cbn; [discriminate|].
  destruct (Ascii.eqb x c); [discriminate|]. destruct (split_byte c t); discriminate.
Qed.
Lemma split_byte_no c s : ~ In c s -> split_byte c s = [s].
Proof.
  induction s as [|x t IH]; cbn; intros H; [reflexivity|].
  destruct (Ascii.eqb_spec x c) as [->|Hn]; [tauto|]. rewrite IH; [reflexivity|tauto].
Qed.
Lemma split_byte_app c a b : ~ In c a -> split_byte c (a ++ c :: b) = a :: split_byte c b.
Proof.
  induction a as [|x t IH]; cbn; intros H.
  - rewrite Ascii.eqb_refl. reflexivity.
  - destruct (Ascii.eqb_spec x c) as [->|Hn]; [tauto|]. rewrite IH; [reflexivity|tauto].
Qed.
Lemma join_split c s : join [c] (split_byte c s) = s.
Proof.
  induction s as [|x t IH]; [reflexivity|]. cbn [split_byte].
  destruct (Ascii.eqb_spec x c) as [->|Hn].
  - destruct (split_byte c t) as [|h r] eqn:E; [destruct (split_byte_nonempty c t E)|].
    cbn in *. rewrite IH. reflexivity.
  - destruct (split_byte c t) as [|h r] eqn:E; [destruct (split_byte_nonempty c t E)|].
    destruct r; cbn in *; rewrite <- IH; reflexivity.
Qed.
Lemma split_join c l : l <> [] -> (forall x, In x l -> ~ In c x) -> split_byte c (join [c] l) = l.
Proof.
  induction l as [|x l IH]; intros Hne H; [congruence|].
  destruct l as [|y l].
  - cbn. apply split_byte_no, H. left; reflexivity.
  - change (join [c] (x :: y :: l)) with (x ++ c :: join [c] (y :: l)).
    rewrite split_byte_app; [|apply H; left; reflexivity].
    f_equal. apply IH; [discriminate|]. intros z Hz. apply H. right; exact Hz.
Qed.
Lemma split_byte_pieces c s x : In x (split_byte c s) -> ~ In c x.
Proof.
  revert x; induction s as [|y t IH]; intros x; cbn [split_byte].
  - intros [<-|[]]. auto.
  - destruct (Ascii.eqb_spec y c) as [->|Hn].
    + intros [<-|H]; [auto|]. apply IH, H.
    + destruct (split_byte c t) as [|h r] eqn:E; [destruct (split_byte_nonempty c t E)|].
      intros [<-|H]; [|apply IH; right; exact H].
      intros [H|H]; [congruence|]. apply (IH h); [left; reflexivity|exact H].
Qed.
Lemma remove_byte_in c s x : In x (remove_byte c s) <-> In x s /\ x <> c.
Proof.
  unfold remove_byte. rewrite filter_In, negb_true_iff.
  split; intros [H1 H2]; split; auto.
  - intros ->. rewrite Ascii.eqb_refl in H2. discriminate.
  - apply Ascii.eqb_neq. exact H2.
Qed.
Lemma remove_byte_no c s : ~ In c s -> remove_byte c s = s.
Proof.
  unfold remove_byte. induction s as [|x t IH]; cbn; intros H; [reflexivity|].
  destruct (Ascii.eqb_spec x c) as [->|Hn]; cbn; [tauto|]. rewrite IH; [reflexivity|tauto].
Qed.

(** decimal numbers *)
Lemma digit_code n : (n < 10)%N -> code (digit n) = (48 + n)%N.
Proof. intros H. unfold digit. apply code_byte_of. lia. Qed.
Lemma is_digit_digit n : (n < 10)%N -> is_digit (digit n) = true.
Proof. intros H. unfold is_digit, in_range. rewrite digit_code by exact H. lia. Qed.
Lemma digits_val_app acc a b :
  digits_val acc (a ++ b) = match digits_val acc a with Some v => digits_val v b | None => None end.
Proof.
  revert acc; induction a as [|c a IH]; intros acc; cbn [app digits_val]; [reflexivity|].
  destruct (is_digit c); [apply IH|reflexivity].
Qed.
Lemma digits_val_acc acc s v :
  digits_val 0 s = Some v ->
  digits_val acc s = Some (acc * 10 ^ N.of_nat (length s) + v)%N.
Proof.
  revert v acc. induction s as [|c s IH] using rev_ind; intros v acc H.
  - cbn in *. injection H as <-. f_equal. lia.
  - rewrite digits_val_app in *. destruct (digits_val 0 s) as [u|]; [|discriminate].
    rewrite (IH u acc eq_refl). cbn [digits_val] in *.
    destruct (is_digit c); [|discriminate]. injection H as <-. f_equal.
    rewrite app_length, Nat2N.inj_add, N.pow_add_r. cbn [length]. lia.
Qed.
Lemma dec_fuel_val f n : (n < 2 ^ N.of_nat f)%N -> f <> O ->
  digits_val 0 (dec_fuel f n) = Some n /\ forallb is_digit (dec_fuel f n) = true
  /\ dec_fuel f n <> [].
Proof.
  revert n; induction f as [|f IH]; intros n H Hf; [congruence|].
  cbn [dec_fuel]. destruct (N.ltb_spec n 10).
  - cbn [digits_val forallb]. rewrite is_digit_digit by lia. rewrite digit_code by lia.
    repeat split; [f_equal; lia|discriminate].
  - rewrite Nat2N.inj_succ, N.pow_succ_r' in H.
    assert (Hf' : f <> O). { intros ->. cbn in H. lia. }
    destruct (IH (n / 10)%N) as (H1 & H2 & H3); [lia|exact Hf'|].
    rewrite digits_val_app, H1, forallb_app, H2. cbn [digits_val forallb].
    rewrite is_digit_digit by lia. rewrite digit_code by lia.
    repeat split; [f_equal; lia|]. intros E. apply app_eq_nil in E as [_ E]. discriminate.
Qed.
Lemma dec_spec n : digits_val 0 (dec n) = Some n /\ forallb is_digit (dec n) = true /\ dec n <> [].
Proof.
  unfold dec. apply dec_fuel_val; [|discriminate].
  rewrite Nat2N.inj_succ, N2Nat.id.
  destruct (N.eq_dec n 0) as [->|Hn]; [cbn; lia|].
  apply N.log2_spec. lia.
Qed.
Lemma dec_val n : digits_val 0 (dec n) = Some n.
Proof. apply dec_spec. Qed.
Lemma dec_inj a b : dec a = dec b -> a = b.
Proof. intros H. pose proof (dec_val a) as Ha. rewrite H, dec_val in Ha. congruence. Qed.
Lemma dec_digits n c : In c (dec n) -> is_digit c = true.
Proof.
  destruct (dec_spec n) as (_ & H & _). rewrite forallb_forall in H. apply H.
Qed.
Lemma dec_nonempty n : dec n <> [].
Proof. apply dec_spec. Qed.
Lemma digits_val_None_nondigit acc s : digits_val acc s = None -> exists c, In c s /\ is_digit c = false.
Proof.
  revert acc; induction s as [|c s IH]; intros acc H; [discriminate|]. cbn in H.
  destruct (is_digit c) eqn:E.
  - destruct (IH _ H) as (d & Hd & Ed). exists d. split; [right; exact Hd|exact Ed].
  - exists c. split; [left; reflexivity|exact E].
Qed.
Lemma digits_val_some s acc : forallb is_digit s = true -> exists v, digits_val acc s = Some v.
Proof.
  intros H. destruct (digits_val acc s) as [v|] eqn:E; [exists v; reflexivity|].
  apply digits_val_None_nondigit in E as (c & Hc & Ec).
  rewrite forallb_forall in H. rewrite (H _ Hc) in Ec. discriminate.
Qed.

Lemma parse_int_dec n : (Z.of_N n <= int64_max)%Z -> parse_int (dec n) = Some (Z.of_N n).
Proof.
  intros H. pose proof (dec_val n) as Hv. pose proof (dec_digits n) as Hd.
  destruct (dec n) as [|c t] eqn:E; [destruct (dec_nonempty n E)|].
  unfold parse_int.
  assert (Hc : is_digit c = true) by (apply Hd; left; reflexivity).
  assert (N1 : Ascii.eqb c "-" = false).
  { apply Ascii.eqb_neq. intros ->. discriminate. }
  assert (N2 : Ascii.eqb c "+" = false).
  { apply Ascii.eqb_neq. intros ->. discriminate. }
  rewrite N1, N2. cbn [orb]. rewrite Hv.
  unfold in_int64, int64_min. destruct (Z.leb_spec (- 2 ^ 63) (Z.of_N n)); [|lia].
  destruct (Z.leb_spec (Z.of_N n) int64_max); [reflexivity|lia].
Qed.

(** wrap-around *)
Lemma wrap64_id z : (int64_min <= z <= int64_max)%Z -> wrap64 z = z.
Proof.
  unfold wrap64, int64_min, int64_max. intros H.
  rewrite Z.mod_small; lia.
Qed.
Lemma wrap64_range z : (int64_min <= wrap64 z <= int64_max)%Z.
Proof.
  unfold wrap64, int64_min, int64_max.
  pose proof (Z.mod_pos_bound (z + 2 ^ 63) (2 ^ 64) eq_refl). lia.
Qed.
Lemma wrap64_wrap64 z : wrap64 (wrap64 z) = wrap64 z.
Proof. apply wrap64_id, wrap64_range. Qed.

(** ** utf8 *)
Section Utf8.
Local Open Scope N_scope.
Lemma decode_rune_width s : s <> [] ->
  (1 <= snd (decode_rune s) <= 4)%nat /\ (snd (decode_rune s) <= length s)%nat.
Proof.
  destruct s as [|c0 t]; [congruence|]. intros _. unfold decode_rune.
  repeat match goal with
         | |- context[if ?b then _ else _] => destruct b
         | |- context[match ?x with [] => _ | _ => _ end] => destruct x as [|? ?]
         end; cbn [snd length]; lia.
Qed.

Lemma valid_rune_lt r : valid_rune r = true -> r < 1114112.
Proof. unfold valid_rune. lia. Qed.

(** a rune that was decoded without error re-encodes to the same bytes *)
Lemma decode_encode s r w :
  s <> [] -> decode_rune s = (r, w) -> ~ (r = RuneError /\ w = 1%nat) ->
  valid_rune r = true /\ s = encode_rune r ++ skipn w s /\ length (encode_rune r) = w.
Proof.
  destruct s as [|c0 t]; [congruence|]. intros _. unfold decode_rune.
  pose proof (code_lt c0) as B0.
  destruct (N.ltb_spec (code c0) 0x80) as [L1|L1].
  { intros [= <- <-] _. unfold encode_rune, valid_rune.
    assert (E : (code c0 <? 55296) || (57343 <? code c0) && (code c0 <=? 1114111) = true) by lia.
    rewrite E. split; [reflexivity|]. destruct (N.ltb_spec (code c0) 128); [|lia].
    cbn [app skipn length]. rewrite byte_of_code. auto. }
  destruct (N.ltb_spec (code c0) 0xC2) as [L2|L2].
  { intros [= <- <-] H. exfalso. apply H. auto. }
  destruct (N.ltb_spec (code c0) 0xE0) as [L3|L3].
  { destruct t as [|c1 t]; [intros [= <- <-] H; exfalso; apply H; auto|].
    unfold is_cont, in_range. pose proof (code_lt c1) as B1.
    destruct ((128 <=? code c1) && (code c1 <=? 191)) eqn:E1;
      [|intros [= <- <-] H; exfalso; apply H; auto].
    intros [= <- <-] _. remember ((code c0 - 192) * 64 + (code c1 - 128)) as r eqn:Er.
    assert (V : valid_rune r = true) by (unfold valid_rune; lia).
    split; [exact V|]. unfold encode_rune. rewrite V.
    destruct (N.ltb_spec r 128); [lia|]. destruct (N.ltb_spec r 2048); [|lia].
    cbn [app skipn length]. split; [|reflexivity].
    replace (192 + r / 64) with (code c0) by lia.
    replace (128 + r mod 64) with (code c1) by lia.
    rewrite !byte_of_code. reflexivity. }
  destruct (N.ltb_spec (code c0) 0xF0) as [L4|L4].
  { destruct t as [|c1 [|c2 t]];
      try (intros [= <- <-] H; exfalso; apply H; auto; fail).
    unfold is_cont, in_range. pose proof (code_lt c1) as B1. pose proof (code_lt c2) as B2.
    match goal with |- context[if ?b then _ else _] => destruct b eqn:E1 end;
      [|intros [= <- <-] H; exfalso; apply H; auto].
    intros [= <- <-] _.
    remember ((code c0 - 224) * 4096 + (code c1 - 128) * 64 + (code c2 - 128)) as r eqn:Er.
    assert (R : 2048 <= r < 65536 /\ (r < 55296 \/ 57343 < r) /\ 128 <= code c1 < 192 /\ 128 <= code c2 < 192).
    { destruct (N.eqb_spec (code c0) 224), (N.eqb_spec (code c0) 237); lia. }
    clear E1.
    assert (V : valid_rune r = true) by (unfold valid_rune; lia).
    split; [exact V|]. unfold encode_rune. rewrite V.
    destruct (N.ltb_spec r 128); [lia|]. destruct (N.ltb_spec r 2048); [lia|].
    destruct (N.ltb_spec r 65536); [|lia].
    cbn [app skipn length]. split; [|reflexivity].
    replace (224 + r / 4096) with (code c0) by lia.
    replace (128 + (r / 64) mod 64) with (code c1) by lia.
    replace (128 + r mod 64) with (code c2) by lia.
    rewrite !byte_of_code. reflexivity. }
  destruct (N.ltb_spec (code c0) 0xF5) as [L5|L5];
    [|intros [= <- <-] H; exfalso; apply H; auto].
  destruct t as [|c1 [|c2 [|c3 t]]];
      try (intros [= <- <-] H; exfalso; apply H; auto; fail).
  unfold is_cont, in_range.
  pose proof (code_lt c1) as B1. pose proof (code_lt c2) as B2. pose proof (code_lt c3) as B3.
  match goal with |- context[if ?b then _ else _] => destruct b eqn:E1 end;
      [|intros [= <- <-] H; exfalso; apply H; auto].
  intros [= <- <-] _.
  remember ((code c0 - 240) * 262144 + (code c1 - 128) * 4096 + (code c2 - 128) * 64 + (code c3 - 128)) as r eqn:Er.
  assert (R : 65536 <= r < 1114112 /\ 128 <= code c1 < 192 /\ 128 <= code c2 < 192
              /\ 128 <= code c3 < 192).
  { destruct (N.eqb_spec (code c0) 240), (N.eqb_spec (code c0) 244); lia. }
  clear E1.
  assert (V : valid_rune r = true) by (unfold valid_rune; lia).
  split; [exact V|]. unfold encode_rune. rewrite V.
  destruct (N.ltb_spec r 128); [lia|]. destruct (N.ltb_spec r 2048); [lia|].
  destruct (N.ltb_spec r 65536); [lia|].
  cbn [app skipn length]. split; [|reflexivity].
  replace (240 + r / 262144) with (code c0) by lia.
  replace (128 + (r / 4096) mod 64) with (code c1) by lia.
  replace (128 + (r / 64) mod 64) with (code c2) by lia.
  replace (128 + r mod 64) with (code c3) by lia.
  rewrite !byte_of_code. reflexivity.
Qed.

(** an encoded rune decodes to itself, whatever follows *)
Lemma encode_decode r t : valid_rune r = true ->
  decode_rune (encode_rune r ++ t) = (r, length (encode_rune r)).
Proof.
  intros V. unfold encode_rune. rewrite V. unfold valid_rune in V.
  destruct (N.ltb_spec r 128) as [L1|L1].
  { cbn [app length decode_rune]. rewrite code_byte_of by lia.
    destruct (N.ltb_spec r 128); [reflexivity|lia]. }
  destruct (N.ltb_spec r 2048) as [L2|L2].
  { cbn [app length decode_rune]. unfold is_cont, in_range. rewrite !code_byte_of by lia.
    destruct (N.ltb_spec (192 + r / 64) 128); [lia|].
    destruct (N.ltb_spec (192 + r / 64) 194); [lia|].
    destruct (N.ltb_spec (192 + r / 64) 224); [|lia].
    match goal with |- context[if ?b then _ else _] => destruct b eqn:E1 end; [|lia].
    f_equal. lia. }
  destruct (N.ltb_spec r 65536) as [L3|L3].
  { cbn [app length decode_rune]. unfold is_cont, in_range. rewrite !code_byte_of by lia.
    destruct (N.ltb_spec (224 + r / 4096) 128); [lia|].
    destruct (N.ltb_spec (224 + r / 4096) 194); [lia|].
    destruct (N.ltb_spec (224 + r / 4096) 224); [lia|].
    destruct (N.ltb_spec (224 + r / 4096) 240); [|lia].
    destruct (N.eqb_spec (224 + r / 4096) 224), (N.eqb_spec (224 + r / 4096) 237);
    (match goal with |- context[if ?b then _ else _] => destruct b eqn:E1 end; [f_equal; lia|lia]). }
  cbn [app length decode_rune]. unfold is_cont, in_range. rewrite !code_byte_of by lia.
  destruct (N.ltb_spec (240 + r / 262144) 128); [lia|].
  destruct (N.ltb_spec (240 + r / 262144) 194); [lia|].
  destruct (N.ltb_spec (240 + r / 262144) 224); [lia|].
  destruct (N.ltb_spec (240 + r / 262144) 240); [lia|].
  destruct (N.ltb_spec (240 + r / 262144) 245); [|lia].
  destruct (N.eqb_spec (240 + r / 262144) 240), (N.eqb_spec (240 + r / 262144) 244);
    (match goal with |- context[if ?b then _ else _] => destruct b eqn:E1 end; [f_equal; lia|lia]).
Qed.
Lemma encode_rune_nonempty r : encode_rune r <> [].
Proof. unfold encode_rune. repeat destruct (_ <? _); discriminate. Qed.
Lemma encode_rune_ascii r : r < 0x80 -> encode_rune r = [byte_of r].
Proof.
  intros H. unfold encode_rune. assert (V : valid_rune r = true) by (unfold valid_rune; lia).
  rewrite V. destruct (N.ltb_spec r 128); [reflexivity|lia].
Qed.
(** the bytes of a non-ASCII rune are all >= 0x80 *)
Lemma encode_rune_high r c : 0x80 <= r -> In c (encode_rune r) -> 0x80 <= code c.
Proof.
  intros H. unfold encode_rune.
  set (r' := if valid_rune r then r else RuneError).
  assert (H' : 128 <= r' < 1114112).
  { subst r'. destruct (valid_rune r) eqn:E; [unfold valid_rune in E; lia|unfold RuneError; lia]. }
  clearbody r'.
  destruct (N.ltb_spec r' 128); [lia|].
  destruct (N.ltb_spec r' 2048) as [L|L]; [|destruct (N.ltb_spec r' 65536) as [L'|L']];
    intros Hi; cbn [In] in Hi;
    repeat (destruct Hi as [Hi|Hi]; [subst c; rewrite code_byte_of; lia|]); destruct Hi.
Qed.
Lemma decode_rune_ascii c t : code c < 0x80 -> decode_rune (c :: t) = (code c, 1%nat).
Proof. intros H. cbn [decode_rune]. destruct (N.ltb_spec (code c) 128); [reflexivity|lia]. Qed.
Lemma decode_rune_high c t : 0x80 <= code c -> 0x80 <= fst (decode_rune (c :: t)).
Proof.
  intros H. destruct (decode_rune (c :: t)) as [r w] eqn:E. cbn [fst].
  destruct (N.eq_dec r RuneError) as [->|Hn]; [unfold RuneError; lia|].
  destruct (decode_encode (c :: t) r w) as (V & H1 & H2); [discriminate|exact E|tauto|].
  destruct (N.ltb_spec r 128) as [L|L]; [|exact L].
  rewrite encode_rune_ascii in H1 by exact L. cbn in H1. injection H1 as H1 _.
  subst c. rewrite code_byte_of in H; lia.
Qed.
Lemma decode_rune_le s : fst (decode_rune s) <= 0x10FFFF.
Proof.
  destruct s as [|c t]; [cbn; unfold RuneError; lia|].
  destruct (decode_rune (c :: t)) as [r w] eqn:E. cbn [fst].
  destruct (N.eq_dec r RuneError) as [->|Hn]; [unfold RuneError; lia|].
  destruct (decode_encode (c :: t) r w) as (V & _); [discriminate|exact E|tauto|].
  unfold valid_rune in V. lia.
Qed.
End Utf8.
