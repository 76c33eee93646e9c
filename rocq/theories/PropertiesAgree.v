(** C04, more closely: which texts of C are read as C reads them, and for which
    operands each operator gives what C's gives. *)
From Coq Require Import Lia ZifyBool ZifyNat ZifyN.
From Verif Require Import GoStr GoStrFacts PluralModel PluralSpec PluralCSpec PluralLexFacts
  PluralParseFacts PluralEvalFacts PluralTextFacts PluralCFacts AgreeSpec AgreeFacts.
Local Open Scope Z_scope.

(** every expression of C is read, by all its text; and it is read as C reads it if
    and only if no > or < has an unparenthesised >= or <= on its left *)
Theorem C04_reading : forall s e, c_text s e ->
  (exists e', wf_text s e') /\ (wf_text s e <-> rel_plain e).
Proof.
  intros s e Ht. split.
  - destruct Ht as (ts & Hl & Hg). destruct (cgram_read _ _ _ Hg) as [e' G]. exists e', ts. split; [exact Hl|exact G].
  - split; [intros (ts & _ & G); exact (gram_plain _ _ _ G)|apply c_text_wf, Ht].
Qed.
Print Assumptions C04_reading.
Example C04_reading_case : exists e e', c_text (B "n >= 1 < 1") e /\ wf_text (B "n >= 1 < 1") e' /\ e' <> e.
Proof.
  exists (EBin BLt (EBin BGe EVar (EInt (B "1"))) (EInt (B "1"))), (EBin BGe EVar (EBin BLt (EInt (B "1")) (EInt (B "1")))).
  assert (L : layout [KN; KGe; KInt (B "1"); KLt; KInt (B "1")] (B "n >= 1 < 1")) by (apply lex_layout; vm_compute; reflexivity).
  split; [|split; [|discriminate]].
  - exists [KN; KGe; KInt (B "1"); KLt; KInt (B "1")]. split; [exact L|]. do 7 (apply CG_up; [lia|lia|]).
    apply (CG_bin KLt BLt 8 [KN; KGe; KInt (B "1")] [KInt (B "1")]); [constructor| |].
    + apply (CG_bin KGe BGe 8 [KN] [KInt (B "1")]); [constructor| |]; repeat (apply CG_up; [lia|lia|]); constructor.
    + repeat (apply CG_up; [lia|lia|]); constructor.
  - exists [KN; KGe; KInt (B "1"); KLt; KInt (B "1")]. split; [exact L|]. do 7 (apply G_up; [lia|lia|]).
    apply (G_bin KGe BGe 8 [KN] [KInt (B "1"); KLt; KInt (B "1")]); [constructor| |].
    + repeat (apply G_up; [lia|lia|]); constructor.
    + apply (G_bin KLt BLt 9 [KInt (B "1")] [KInt (B "1")]); [constructor| |]; repeat (apply G_up; [lia|lia|]); constructor.
Qed.

(** whatever the shape of the expression: if C computes it by operations whose
    operands are unproblematic, the library gives C's value, or an error when an
    operand that C skips cannot be computed *)
Theorem C04_pointwise_partial : forall s e n v,
  c_text s e -> rel_plain e -> int64 n -> same n e v ->
  cval n e v /\ ((eval s n = EvOk v /\ ~ faults n e) \/ (eval s n = EvErr /\ faults n e)).
Proof.
  intros s e n v Ht R Hn Hv. split; [exact (same_cval _ _ _ Hv)|].
  pose proof (c_text_wf _ _ Ht R) as W. pose proof (wf_text_lits _ _ W) as L.
  destruct (eval_wf s e n W Hn) as [E1 E2].
  destruct (val_or_faults n e Hn L) as [[u Hu]|F].
  - left. assert (N : ~ faults n e) by (intros F; exact (val_not_faults n e u Hn L Hu F)).
    split; [|exact N]. apply E1. apply same_val; assumption.
  - right. split; [apply E2, F|exact F].
Qed.
Print Assumptions C04_pointwise_partial.
(** the fragment of [C04_c_semantics_partial] is covered *)
Theorem C04_clean_partial : forall n e v, clean e -> cval n e v -> same n e v.
Proof. exact clean_same. Qed.
Print Assumptions C04_clean_partial.
(** n ? 1 : 0 is outside that fragment; it is right for 0 and 1 *)
Example C04_pointwise_case : exists e, c_text (B "n ? 1 : 0") e /\ rel_plain e /\ ~ clean e /\ same 1 e 1 /\ same 0 e 0.
Proof.
  exists (ECond EVar (EInt (B "1")) (EInt (B "0"))). split; [|split; [cbn; tauto|split; [cbn; tauto|]]].
  - exists [KN; KQ; KInt (B "1"); KColon; KInt (B "0")]. split; [apply lex_layout; vm_compute; reflexivity|].
    apply (CG_cond [KN] [KInt (B "1")] [KInt (B "0")]); repeat (apply CG_up; [lia|lia|]); constructor.
  - split; [apply S_cond_t; [constructor|apply (S_int 1 (B "1")); reflexivity]|apply S_cond_f; [constructor|apply (S_int 0 (B "0")); reflexivity]].
Qed.

(** for operands whose values agree, exactly when each of the five operators agrees
    with C's; all the others always do where C defines their value *)
Definition agrees (n : Z) (e : exp) : Prop := forall v, cval n e v -> val n e v.
Theorem C04_operators : forall n a b c x y z,
  val n a x -> cval n a x -> val n b y -> cval n b y -> val n c z -> cval n c z ->
  (agrees n (EPre PNot a) <-> x = 0 \/ x = 1) /\
  (agrees n (EBin BLand a b) <-> x = 0 \/ y = 0 \/ x = 1 /\ y = 1) /\
  (agrees n (EBin BLor a b) <-> x = 0 /\ y = 0 \/ x = 1 \/ y = 1) /\
  (agrees n (EBin BXor a b) <-> x = 0 /\ y = 0) /\
  (agrees n (ECond a b c) <-> x = 0 \/ x = 1 \/ y = z) /\
  (forall o, o <> PNot -> agrees n (EPre o a)) /\
  (forall o, o <> BLand -> o <> BLor -> o <> BXor -> agrees n (EBin o a b)).
Proof.
  intros n a b c x y z Va Ca Vb Cb Vc Cc. unfold agrees.
  assert (T : forall P : Prop, P \/ ~ P -> exists v, truth P v) by (intros P [H|H]; [exists 1|exists 0]; unfold truth; tauto).
  split; [|split; [|split; [|split; [|split; [|split]]]]].
  - split.
    + intros H. destruct (T (x = 0) ltac:(lia)) as [v Hv]. specialize (H v (C_not n a x v Ca Hv)).
      inversion H as [| | | |? ? x' ? H1 H2| | | ]; subst. rewrite (val_fun _ _ _ _ H1 Va) in *. inversion H2; subst. unfold truth in *; lia.
    + intros B v H. inversion H as [| | | | | |? x' ? H1 Ht| | | | | | | ]; subst. rewrite (cval_fun _ _ _ H1 _ Ca) in *.
      eapply V_pre; [exact Va|]. constructor. unfold truth in *; lia.
  - assert (D : exists v, cval n (EBin BLand a b) v /\ truth (x <> 0 /\ y <> 0) v).
    { destruct (Z.eq_dec x 0) as [-> | N]; [exists 0; split; [apply C_and_f, Ca|unfold truth; lia]|].
      destruct (T (y <> 0) ltac:(lia)) as [v Hv]. exists v. split; [exact (C_and_t n a b x y v Ca N Cb Hv)|unfold truth in *; lia]. }
    destruct D as (v & Cv & Tv). split.
    + intros H. specialize (H v Cv). inversion H as [| | | | |? ? ? x' y' ? H1 H2 H3| | ]; subst.
      rewrite (val_fun _ _ _ _ H1 Va), (val_fun _ _ _ _ H2 Vb) in *. inversion H3; subst. unfold truth in *; lia.
    + intros B v' H. rewrite (cval_fun _ _ _ H _ Cv). eapply V_bin; [exact Va|exact Vb|]. constructor. unfold truth in *; lia.
  - assert (D : exists v, cval n (EBin BLor a b) v /\ truth (x <> 0 \/ y <> 0) v).
    { destruct (Z.eq_dec x 0) as [-> | N]; [|exists 1; split; [exact (C_or_t n a b x Ca N)|unfold truth; lia]].
      destruct (T (y <> 0) ltac:(lia)) as [v Hv]. exists v. split; [exact (C_or_f n a b y v Ca Cb Hv)|unfold truth in *; lia]. }
    destruct D as (v & Cv & Tv). split.
    + intros H. specialize (H v Cv). inversion H as [| | | | |? ? ? x' y' ? H1 H2 H3| | ]; subst.
      rewrite (val_fun _ _ _ _ H1 Va), (val_fun _ _ _ _ H2 Vb) in *. inversion H3; subst. unfold truth in *; lia.
    + intros B v' H. rewrite (cval_fun _ _ _ H _ Cv). eapply V_bin; [exact Va|exact Vb|]. constructor. unfold truth in *; lia.
  - assert (Cv : cval n (EBin BXor a b) (Z.lxor x y)).
    { eapply C_bin; [exact Ca|exact Cb|]. constructor. intros i _. apply Z.lxor_spec. }
    split.
    + intros H. specialize (H _ Cv). inversion H as [| | | | |? ? ? x' y' ? H1 H2 H3| | ]; subst.
      rewrite (val_fun _ _ _ _ H1 Va), (val_fun _ _ _ _ H2 Vb) in *. inversion H3 as [| | | | | | | | | | | | | | |? ? ? K| | ]; subst.
      assert (Q : forall i, 0 <= i -> Z.testbit x i = false /\ Z.testbit y i = false).
      { intros i Hi. specialize (K i Hi). rewrite Z.lxor_spec in K. destruct (Z.testbit x i), (Z.testbit y i); try discriminate; split; reflexivity. }
      split; apply Z.bits_inj_0; intros i; (destruct (Z_lt_le_dec i 0) as [L|L]; [apply Z.testbit_neg_r, L|apply Q, L]).
    + intros [-> ->] v' H. rewrite (cval_fun _ _ _ H _ Cv). eapply V_bin; [exact Va|exact Vb|]. apply xor_zero.
  - assert (D : exists v, cval n (ECond a b c) v /\ (x = 0 /\ v = z \/ x <> 0 /\ v = y)).
    { destruct (Z.eq_dec x 0) as [-> | N]; [exists z; split; [apply C_cond_f; assumption|lia]|exists y; split; [apply (C_cond_t n a b c x); assumption|lia]]. }
    destruct D as (v & Cv & Tv). split.
    + intros H. specialize (H v Cv). inversion H as [| | | | | |? ? ? ? ? H1 H2 H3|? ? ? ? ? ? H1 N H2 H3]; subst.
      * right. left. exact (val_fun _ _ _ _ Va H1).
      * pose proof (val_fun _ _ _ _ Va H1). pose proof (val_fun _ _ _ _ Vb H2). pose proof (val_fun _ _ _ _ Vc H3). lia.
    + intros B v' H. rewrite (cval_fun _ _ _ H _ Cv). destruct (Z.eq_dec x 1) as [-> | N].
      * replace v with y by lia. eapply V_cond_t; eassumption.
      * replace v with z by lia. eapply V_cond_f; eassumption.
  - intros o N v H. inversion H; subst; try congruence;
      match goal with K : cval n a ?w |- _ => rewrite (cval_fun _ _ _ K _ Ca) in * end; eapply V_pre; try exact Va; constructor.
    apply wraps_self. assumption.
  - intros o N1 N2 N3 v H. inversion H; subst; try congruence.
    match goal with K : cval n a ?w |- _ => rewrite (cval_fun _ _ _ K _ Ca) in * end.
    match goal with K : cval n b ?w |- _ => rewrite (cval_fun _ _ _ K _ Cb) in * end.
    eapply V_bin; [exact Va|exact Vb|]. apply c_op_bin; assumption.
Qed.
Print Assumptions C04_operators.
Example C04_operators_case : let a := EBin BMod EVar (EInt (B "10")) in
  val 23 a 3 /\ cval 23 a 3 /\ ~ agrees 23 (EPre PNot a) /\ ~ agrees 23 (EBin BXor a EVar) /\ agrees 23 (EBin BLor a (EBin BEq a (EInt (B "3")))).
Proof.
  cbv zeta. set (a := EBin BMod EVar (EInt (B "10"))). set (d := EBin BEq a (EInt (B "3"))).
  assert (Q : quot_rem 23 10 2 3) by (unfold quot_rem; lia).
  assert (Va : val 23 a 3) by (eapply V_bin; [constructor|apply (V_int 23 (B "10")); reflexivity|eapply BV_mod; exact Q]).
  assert (Ca : cval 23 a 3) by (eapply C_bin; [constructor|apply (C_int 23 (B "10")); reflexivity|eapply CO_mod; [exact Q|unfold int64; lia]]).
  assert (Vd : val 23 d 1) by (eapply V_bin; [exact Va|apply (V_int 23 (B "3")); reflexivity|constructor; left; split; reflexivity]).
  assert (Cd : cval 23 d 1) by (eapply C_bin; [exact Ca|apply (C_int 23 (B "3")); reflexivity|constructor; left; split; reflexivity]).
  split; [exact Va|]. split; [exact Ca|].
  destruct (C04_operators 23 a EVar EVar 3 23 23 Va Ca ltac:(constructor) ltac:(constructor) ltac:(constructor) ltac:(constructor)) as (N & _ & _ & X & _).
  destruct (C04_operators 23 a d EVar 3 1 23 Va Ca Vd Cd ltac:(constructor) ltac:(constructor)) as (_ & _ & O & _).
  rewrite N, X, O. lia.
Qed.
