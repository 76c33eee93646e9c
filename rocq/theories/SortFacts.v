(** Facts about the order in which entries are saved. *)
From Coq Require Import Lia Permutation ZifyBool ZifyNat ZifyN.
From Verif Require Import GoStr GoStrFacts GoMap FileModel PoModel.

(** ** The byte order *)
Lemma bltb_common p a b : bltb (p ++ a) (p ++ b) = bltb a b.
Proof. induction p as [|c p IH]; [reflexivity|]. cbn [app bltb]. rewrite N.ltb_irrefl. exact IH. Qed.
Lemma bltb_front a b x y : length a = length b -> bltb a b = true -> bltb (a ++ x) (b ++ y) = true.
Proof.
  revert b. induction a as [|c a IH]; intros [|d b] L H; cbn in L; try discriminate.
  cbn [app bltb] in *. destruct (code c <? code d)%N; [reflexivity|]. destruct (code d <? code c)%N; [discriminate|].
  apply IH; [lia|exact H].
Qed.

(** ** Numbers of fixed width *)
Lemma digit_bounds c : is_digit c = true -> (48 <= code c <= 57)%N.
Proof. unfold is_digit, in_range. intros H. apply andb_true_iff in H as [H1 H2]. lia. Qed.
Lemma digits_bound s v : digits_val 0 s = Some v -> (v < 10 ^ N.of_nat (length s))%N.
Proof.
  revert v. induction s as [|c s IH] using rev_ind; intros v H; [injection H as <-; cbn; lia|].
  rewrite digits_val_app in H. destruct (digits_val 0 s) as [u|] eqn:E; [|discriminate]. specialize (IH u eq_refl).
  cbn [digits_val] in H. destruct (is_digit c) eqn:D; [|discriminate]. injection H as <-. apply digit_bounds in D.
  rewrite app_length, Nat2N.inj_add, N.pow_add_r. cbn [length]. change (10 ^ N.of_nat 1)%N with 10%N. lia.
Qed.
Lemma all_digits acc s : digits_val acc s <> None -> forall x, In x s -> is_digit x = true.
Proof.
  revert acc. induction s as [|y s IHs]; intros acc N x I; [destruct I|].
  cbn [digits_val] in N. destruct (is_digit y) eqn:E; [|congruence].
  destruct I as [<-|I]; [exact E|]. eapply IHs; eassumption.
Qed.
Lemma digits_lex a : forall b u v, length a = length b ->
  digits_val 0 a = Some u -> digits_val 0 b = Some v -> (u < v)%N -> bltb a b = true.
Proof.
  induction a as [|c a IH]; intros [|d b] u v L Ha Hb H; cbn in L; try discriminate.
  - cbn in *. injection Ha as <-. injection Hb as <-. lia.
  - cbn [digits_val] in Ha, Hb. destruct (is_digit c) eqn:Dc; [|discriminate]. destruct (is_digit d) eqn:Dd; [|discriminate].
    apply digit_bounds in Dc, Dd.
    destruct (digits_val 0 a) as [u'|] eqn:Ea.
    2:{ apply digits_val_None_nondigit in Ea as (x & Hx & Ex). exfalso.
        rewrite (all_digits _ _ ltac:(rewrite Ha; discriminate) _ Hx) in Ex. discriminate. }
    destruct (digits_val 0 b) as [v'|] eqn:Eb.
    2:{ apply digits_val_None_nondigit in Eb as (x & Hx & Ex). exfalso.
        rewrite (all_digits _ _ ltac:(rewrite Hb; discriminate) _ Hx) in Ex. discriminate. }
    rewrite (digits_val_acc _ _ _ Ea) in Ha. rewrite (digits_val_acc _ _ _ Eb) in Hb.
    injection Ha as Ha. injection Hb as Hb. cbn [length] in L. injection L as L.
    assert (L' : N.of_nat (length a) = N.of_nat (length b)) by lia.
    pose proof (digits_bound _ _ Ea) as Ba. pose proof (digits_bound _ _ Eb) as Bb. rewrite L' in *.
    remember (10 ^ N.of_nat (length b))%N as P.
    cbn [bltb]. destruct (N.ltb_spec (code c) (code d)); [reflexivity|].
    destruct (N.ltb_spec (code d) (code c)).
    + exfalso.
      assert ((code d - 48) + 1 <= code c - 48)%N by lia.
      assert (((code d - 48) + 1) * P <= (code c - 48) * P)%N by (apply N.mul_le_mono_r; assumption).
      lia.
    + assert (code c = code d) as Q by lia. rewrite Q in Ha. apply (IH b u' v'); auto. lia.
Qed.
Lemma dec_fuel_len f : forall k n, (n < 10 ^ N.of_nat (S k))%N -> length (dec_fuel f n) <= S k.
Proof.
  induction f as [|f IH]; intros k n H; [cbn; lia|]. cbn [dec_fuel].
  destruct (N.ltb_spec n 10); [cbn; lia|]. destruct k as [|k]; [cbn in H; lia|].
  rewrite app_length. cbn [length]. specialize (IH k (n / 10)%N).
  assert (n / 10 < 10 ^ N.of_nat (S k))%N; [|specialize (IH ltac:(assumption)); lia].
  apply N.div_lt_upper_bound; [lia|]. rewrite (Nat2N.inj_succ (S k)), N.pow_succ_r' in H. exact H.
Qed.
Lemma dec_len k n : (n < 10 ^ N.of_nat (S k))%N -> length (dec n) <= S k.
Proof. apply dec_fuel_len. Qed.
Lemma dec_len_mono n m : (n < m)%N -> length (dec n) <= length (dec m).
Proof.
  intros H. destruct (dec m) as [|c t] eqn:E; [apply dec_nonempty in E; destruct E|]. rewrite <- E.
  pose proof (digits_bound _ _ (dec_val m)) as B. rewrite E in *. cbn [length] in *. apply dec_len. lia.
Qed.
Lemma pad_cmp n m : (n < m)%N -> length (dec m) <= 10 -> length (pad10 (dec n)) = length (pad10 (dec m)) /\ bltb (pad10 (dec n)) (pad10 (dec m)) = true.
Proof.
  intros H L. pose proof (dec_len_mono n m H) as L'. unfold pad10. rewrite !app_length, !repeat_length. split; [lia|].
  destruct (Nat.eq_dec (length (dec n)) (length (dec m))) as [E|E].
  - rewrite E, bltb_common. eapply digits_lex; [exact E|apply dec_val|apply dec_val|exact H].
  - replace (10 - length (dec n)) with ((10 - length (dec m)) + S (length (dec m) - length (dec n) - 1)) by lia.
    rewrite repeat_app, <- app_assoc, bltb_common. cbn [repeat app].
    destruct (dec m) as [|d t] eqn:Em; [apply dec_nonempty in Em; destruct Em|]. cbn [app bltb].
    assert (D : is_digit d = true) by (apply (dec_digits m); rewrite Em; left; reflexivity).
    apply digit_bounds in D. change (code SP) with 32%N. destruct (N.ltb_spec 32 (code d)); [reflexivity|lia].
Qed.

(** ** The fields of a reference comment *)
Lemma split_byte_app_gen c a b : split_byte c (a ++ c :: b) = split_byte c a ++ split_byte c b.
Proof.
  induction a as [|x a IH]; cbn [app split_byte]; [rewrite Ascii.eqb_refl; reflexivity|].
  destruct (Ascii.eqb x c); [rewrite IH; reflexivity|]. rewrite IH.
  destruct (split_byte c a) as [|y r] eqn:E; [apply split_byte_nonempty in E; destruct E|]. reflexivity.
Qed.
Definition fields (s : bytes) : list bytes := concat (map (split_byte ":") (split_byte SP s)).
Lemma fields_nil : fields [] = [[]]. Proof. reflexivity. Qed.
Lemma fields_cons x s : exists y r, fields s = y :: r /\
  fields (x :: s) = if Ascii.eqb x SP || Ascii.eqb x ":" then [] :: fields s else (x :: y) :: r.
Proof.
  unfold fields. cbn [split_byte]. destruct (split_byte SP s) as [|l ls] eqn:E; [apply split_byte_nonempty in E; destruct E|].
  cbn [map concat]. destruct (split_byte ":" l) as [|y r] eqn:El; [apply split_byte_nonempty in El; destruct El|].
  exists y, (r ++ concat (map (split_byte ":") ls)). split; [reflexivity|].
  destruct (Ascii.eqb_spec x SP) as [->|N]; cbn [orb map concat].
  - rewrite El. reflexivity.
  - cbn [split_byte]. destruct (Ascii.eqb x ":"); rewrite El; reflexivity.
Qed.
Lemma fields_sep x a b : x = SP \/ x = ":"%char -> fields (a ++ x :: b) = fields a ++ fields b.
Proof.
  intros Hx. induction a as [|y a IH]; cbn [app].
  - destruct (fields_cons x b) as (y & r & _ & E). rewrite E.
    destruct Hx as [-> | ->]; reflexivity.
  - destruct (fields_cons y (a ++ x :: b)) as (z & r & E1 & E2). destruct (fields_cons y a) as (z' & r' & E1' & E2').
    rewrite E2, E2'. rewrite IH in *. destruct (Ascii.eqb y SP || Ascii.eqb y ":"); [reflexivity|].
    rewrite E1' in E1. cbn [app] in E1. injection E1 as <- <-. reflexivity.
Qed.
Lemma fields_plain s : ~ In SP s -> ~ In ":"%char s -> fields s = [s].
Proof. intros H1 H2. unfold fields. rewrite split_byte_no by exact H1. cbn. rewrite split_byte_no by exact H2. reflexivity. Qed.
Lemma line_string_fields cmt : line_string_1 (B "#:" ++ cmt) = B "#:" ++ concat (map sort_field (fields cmt)).
Proof.
  unfold line_string_1. rewrite trim_prefix_app. unfold fields. f_equal. f_equal.
  rewrite concat_map, map_map. reflexivity.
Qed.
Lemma dec_no_sep n : ~ In SP (dec n) /\ ~ In ":"%char (dec n).
Proof. split; intros H; apply dec_digits in H; vm_compute in H; discriminate. Qed.
Definition ref_end (t : bytes) : Prop := t = [] \/ exists x u, t = x :: u /\ (x = SP \/ x = ":"%char).
Lemma ref_key p n t : (Z.of_N n <= int64_max)%Z -> ref_end t ->
  exists u, line_string_1 (B "#:" ++ p ++ ":"%char :: dec n ++ t) =
    B "#:" ++ concat (map sort_field (fields p)) ++ pad10 (dec n) ++ u.
Proof.
  intros Hn Ht. rewrite line_string_fields. rewrite fields_sep by auto. rewrite map_app, concat_app.
  assert (S : sort_field (dec n) = pad10 (dec n)).
  { unfold sort_field. rewrite parse_int_dec by exact Hn. f_equal. unfold dec_Z.
    destruct n; reflexivity. }
  destruct (dec_no_sep n) as [N1 N2].
  destruct Ht as [->|(x & u & -> & Hx)].
  - rewrite (app_nil_r (dec n)), (fields_plain (dec n)) by assumption. exists []. cbn [map concat]. rewrite S. reflexivity.
  - rewrite fields_sep by exact Hx. rewrite (fields_plain (dec n)) by assumption. cbn [app map concat]. rewrite S.
    eexists. reflexivity.
Qed.

(** ** Orders *)
Lemma line_string_app e pre c post : e_cmts e = pre ++ c :: post -> (forall x, In x pre -> has_prefix (B "#:") x = false) ->
  has_prefix (B "#:") c = true ->
  exists u, line_string e = line_string_1 c ++ u.
Proof.
  intros E H Hc. unfold line_string. rewrite E, map_app, concat_app. cbn [map concat]. rewrite Hc.
  replace (concat (map _ pre)) with (@nil ascii); [eexists; reflexivity|].
  symmetry. clear E. induction pre as [|x pre IH]; [reflexivity|]. cbn [map concat].
  rewrite (H x (or_introl eq_refl)). apply IH. intros y Hy; apply H; right; exact Hy.
Qed.
(** [e] refers first to line [n] of [p] *)
Definition refers (e : entry) (p : bytes) (n : N) : Prop :=
  e_id e <> [] /\ exists pre t post,
    e_cmts e = pre ++ (B "#:" ++ p ++ ":"%char :: dec n ++ t) :: post
    /\ (forall x, In x pre -> has_prefix (B "#:") x = false) /\ ref_end t.
Lemma refers_order e1 e2 p n1 n2 : refers e1 p n1 -> refers e2 p n2 -> (n1 < n2 < 10 ^ 10)%N ->
  bltb (sort_key e1) (sort_key e2) = true.
Proof.
  intros (I1 & pre1 & t1 & post1 & E1 & P1 & T1) (I2 & pre2 & t2 & post2 & E2 & P2 & T2) H.
  destruct (line_string_app e1 _ _ _ E1 P1 (has_prefix_app _ _)) as [u1 L1].
  destruct (line_string_app e2 _ _ _ E2 P2 (has_prefix_app _ _)) as [u2 L2].
  assert (M : (2 ^ 63 - 1 >= 10 ^ 10)%Z) by (vm_compute; discriminate).
  destruct (ref_key p n1 t1) as [v1 K1]; [unfold int64_max; lia|exact T1|].
  destruct (ref_key p n2 t2) as [v2 K2]; [unfold int64_max; lia|exact T2|].
  unfold sort_key, is_header.
  destruct (e_id e1) as [|x1 i1] eqn:Ei1; [congruence|]. destruct (e_id e2) as [|x2 i2] eqn:Ei2; [congruence|]. cbn [is_empty].
  rewrite L1, L2, K1, K2, <- !app_assoc, !bltb_common.
  destruct (pad_cmp n1 n2) as [PL PB]; [lia|apply (dec_len 9); apply H|].
  apply bltb_front; assumption.
Qed.
Lemma sorted_before l e1 e2 a b : sorted_by_key l -> bltb (sort_key e1) (sort_key e2) = true ->
  l = a ++ e2 :: b -> ~ In e1 b.
Proof.
  revert a. induction l as [|x l IH]; intros a S H E; [destruct a; discriminate|].
  destruct S as [S1 S2]. destruct a as [|y a]; cbn [app] in E; injection E as -> ->.
  - intros I. rewrite (S1 e1 I) in H. discriminate.
  - apply (IH a S2 H eq_refl).
Qed.
Lemma sorted_header l a e b : sorted_by_key l -> l = a ++ e :: b -> e_id e = [] -> forall x, In x a -> e_id x = [].
Proof.
  revert a. induction l as [|y l IH]; intros a S E He x Hx; [destruct a; discriminate|].
  destruct S as [S1 S2]. destruct a as [|z a]; [destruct Hx|]. cbn [app] in E. injection E as -> ->.
  destruct Hx as [<-|Hx]; [|eapply IH; eauto].
  specialize (S1 e ltac:(apply in_or_app; right; left; reflexivity)).
  unfold sort_key, is_header in S1. rewrite He in S1. cbn [is_empty] in S1.
  destruct (e_id z); [reflexivity|]. cbn [is_empty] in S1.
  destruct (line_string z ++ e_key z) as [|w t] eqn:Q; [|discriminate].
  apply app_eq_nil in Q as [_ Q]. unfold e_key, key in Q. destruct (e_ctxt z); discriminate.
Qed.
(** sorting exists *)
Fixpoint insert (e : entry) (l : list entry) : list entry :=
  match l with
  | [] => [e]
  | x :: r => if bltb (sort_key x) (sort_key e) then x :: insert e r else e :: l
  end.
Definition isort (l : list entry) : list entry := fold_right insert [] l.
Lemma insert_perm e l : Permutation (insert e l) (e :: l).
Proof.
  induction l as [|x r IH]; [reflexivity|]. cbn [insert]. destruct (bltb _ _); [|reflexivity].
  etransitivity; [apply perm_skip, IH|apply perm_swap].
Qed.
Lemma insert_sorted e l : sorted_by_key l -> sorted_by_key (insert e l).
Proof.
  induction l as [|x r IH]; intros S; [split; [intros y []|exact I]|]. destruct S as [S1 S2]. cbn [insert].
  destruct (bltb (sort_key x) (sort_key e)) eqn:E; cbn [sorted_by_key].
  - split; [|apply IH, S2]. intros y Hy. apply (Permutation_in _ (insert_perm e r)) in Hy. destruct Hy as [<-|Hy]; [apply bltb_asym, E|auto].
  - split; [|split; assumption]. intros y [<-|Hy]; [exact E|].
    destruct (bltb (sort_key y) (sort_key e)) eqn:E2; [|reflexivity]. specialize (S1 y Hy).
    destruct (bltb (sort_key e) (sort_key x)) eqn:E3.
    + pose proof (bltb_trans _ _ _ E2 E3). congruence.
    + pose proof (bltb_trichotomy _ _ E E3) as Q. congruence.
Qed.
Lemma isort_sorted l : Permutation (isort l) l /\ sorted_by_key (isort l).
Proof.
  induction l as [|e l [P S]]; [split; [reflexivity|exact I]|]. cbn [isort fold_right]. split.
  - etransitivity; [apply insert_perm|]. apply perm_skip, P.
  - apply insert_sorted, S.
Qed.
(** the order is unique if no two entries have the same sort key *)
Lemma sorted_unique : forall l1 l2, Permutation l1 l2 -> NoDup (map sort_key l1) ->
  sorted_by_key l1 -> sorted_by_key l2 -> l1 = l2.
Proof.
  induction l1 as [|x l1 IH]; intros l2 P N S1 S2.
  - apply Permutation_nil in P. congruence.
  - destruct l2 as [|y l2]; [symmetry in P; apply Permutation_nil in P; discriminate|].
    cbn [map] in N. inversion N as [|k m Nx N']; subst.
    assert (x = y) as <-.
    { assert (Hy : In y (x :: l1)) by (apply (Permutation_in y (Permutation_sym P)); left; reflexivity).
      assert (Hx : In x (y :: l2)) by (apply (Permutation_in x P); left; reflexivity).
      destruct Hy as [->|Hy]; [reflexivity|]. destruct Hx as [->|Hx]; [reflexivity|]. exfalso.
      destruct S1 as [S1 _], S2 as [S2 _]. apply Nx.
      rewrite (bltb_trichotomy _ _ (S2 x Hx) (S1 y Hy)). apply in_map, Hy. }
    f_equal. apply IH; [apply (Permutation_cons_inv P)|exact N'|apply S1|apply S2].
Qed.
