(** Proofs about the agreement of plural expressions with C. *)
From Coq Require Import Lia ZifyBool ZifyNat ZifyN.
From Verif Require Import GoStr GoStrFacts PluralModel PluralSpec PluralCSpec PluralLexFacts
  PluralParseFacts PluralEvalFacts PluralTextFacts PluralCFacts AgreeSpec.
Local Open Scope Z_scope.

(** ** C's values are unique *)
Lemma c_op_fun o x y v v' : c_op o x y v -> c_op o x y v' -> v = v'.
Proof.
  intros H H'. destruct (match o with BXor => true | _ => false end) eqn:E.
  - destruct o; try discriminate. inversion H; inversion H'; subst. match goal with K : bitwise _ _ _ v, K2 : bitwise _ _ _ v' |- _ => exact (bitwise_fun _ _ _ _ _ K K2) end.
  - assert (o <> BXor) by (intros ->; discriminate). exact (bin_val_fun _ _ _ _ _ (c_op_bin _ _ _ _ H H0) (c_op_bin _ _ _ _ H' H0)).
Qed.
Lemma cval_fun n e v : cval n e v -> forall v', cval n e v' -> v = v'.
Proof.
  induction 1 as [ds H| |e v H IH|e x H IH|e x H IH Hi|e x H IH|e x v H IH Ht
                 |o a b x y v Ha IHa Hb IHb Ho|a b Ha IHa|a b x y v Ha IHa Hx Hb IHb Ht
                 |a b x Ha IHa Hx|a b y v Ha IHa Hb IHb Ht
                 |a b c x v Ha IHa Hx Hb IHb|a b c v Ha IHa Hc IHc]; intros v' H'.
  - inversion H'; reflexivity.
  - inversion H'; reflexivity.
  - inversion H'; subst. apply IH. assumption.
  - inversion H'; subst. apply IH. assumption.
  - inversion H'; subst. f_equal. apply IH. assumption.
  - inversion H'; subst. f_equal. f_equal. apply IH. assumption.
  - inversion H'; subst. rewrite <- (IH _ ltac:(eassumption)) in *. eapply truth_fun; eassumption.
  - inversion H'; subst; try (inversion Ho; fail).
    rewrite <- (IHa x0 ltac:(assumption)) in *. rewrite <- (IHb y0 ltac:(assumption)) in *. eapply c_op_fun; eassumption.
  - inversion H'; subst.
    + match goal with K : c_op _ _ _ _ |- _ => inversion K end.
    + reflexivity.
    + match goal with K : cval n a ?x, N : ?x <> 0 |- _ => destruct N; symmetry; apply IHa, K end.
  - inversion H'; subst.
    + match goal with K : c_op _ _ _ _ |- _ => inversion K end.
    + destruct Hx. apply IHa. assumption.
    + rewrite <- (IHb y0 ltac:(assumption)) in *. eapply truth_fun; eassumption.
  - inversion H'; subst.
    + match goal with K : c_op _ _ _ _ |- _ => inversion K end.
    + reflexivity.
    + destruct Hx. apply IHa. assumption.
  - inversion H'; subst.
    + match goal with K : c_op _ _ _ _ |- _ => inversion K end.
    + match goal with K : cval n a ?x, N : ?x <> 0 |- _ => destruct N; symmetry; apply IHa, K end.
    + rewrite <- (IHb y0 ltac:(assumption)) in *. eapply truth_fun; eassumption.
  - inversion H'; subst; [apply IHb; assumption|]. destruct Hx. apply IHa. assumption.
  - inversion H'; subst; [|apply IHc; assumption].
    match goal with K : cval n a ?x, N : ?x <> 0 |- _ => destruct N; symmetry; apply IHa, K end.
Qed.

(** ** Agreement operation by operation *)
Lemma same_cval n e v : same n e v -> cval n e v.
Proof.
  induction 1 as [ds H| |e v H IH|e x H IH|e x H IH Hi|e x H IH|e x v H IH B Ht
                 |o a b x y v Ha IHa Hb IHb Ho X|a b Ha IHa|a b x y v Ha IHa Hx Hb IHb B Ht
                 |a b Ha IHa|a b x Ha IHa Hx Hb IHb|a b y v Ha IHa Hb IHb B Ht
                 |a b c v Ha IHa Hb IHb|a b c v Ha IHa Hc IHc|a b c x v Ha IHa Hb IHb Hc IHc];
    try (econstructor; eassumption).
  - apply (C_or_t n a b 1); [exact IHa|lia].
  - apply (C_cond_t n a b c 1); [exact IHa|lia|exact IHb].
  - destruct (Z.eq_dec x 0) as [-> | N]; [apply C_cond_f; assumption|apply (C_cond_t n a b c x); assumption].
Qed.
Lemma clean_same n e v : clean e -> cval n e v -> same n e v.
Proof.
  intros C H. revert C.
  induction H as [ds H| |e v H IH|e x H IH|e x H IH Hi|e x H IH|e x v H IH Ht
                 |o a b x y v Ha IHa Hb IHb Ho|a b Ha IHa|a b x y v Ha IHa Hx Hb IHb Ht
                 |a b x Ha IHa Hx|a b y v Ha IHa Hb IHb Ht
                 |a b c x v Ha IHa Hx Hb IHb|a b c v Ha IHa Hc IHc]; cbn [clean]; intros C.
  - constructor; assumption.
  - constructor.
  - constructor; auto.
  - constructor; apply IH, C.
  - constructor; [apply IH, C|exact Hi].
  - constructor; apply IH, C.
  - destruct C as [C B]. apply (S_not n e x); [apply IH, C|exact (boolean_01 _ _ _ H B)|exact Ht].
  - destruct C as (Ca & Cb & Co). apply (S_bin n o a b x y); auto. intros ->. contradiction.
  - apply S_and_f, IHa, C.
  - destruct C as (Ca & Cb & Ba & Bb). apply (S_and_t n a b x y); auto.
    destruct (boolean_01 _ _ _ Ha Ba), (boolean_01 _ _ _ Hb Bb); lia.
  - destruct C as (Ca & Cb & Ba & Bb). apply S_or_t. replace 1 with x; [auto|]. destruct (boolean_01 _ _ _ Ha Ba); lia.
  - destruct C as (Ca & Cb & Ba & Bb). apply (S_or_f n a b y); auto. destruct (boolean_01 _ _ _ Hb Bb); lia.
  - destruct C as (Ca & Ba & Cb & Cc). apply S_cond_t; [|auto]. replace 1 with x; [auto|]. destruct (boolean_01 _ _ _ Ha Ba); lia.
  - destruct C as (Ca & Ba & Cb & Cc). apply S_cond_f; auto.
Qed.
Lemma xor_zero : bin_val BXor 0 0 0.
Proof. constructor. intros i _. rewrite Z.bits_0. reflexivity. Qed.
Lemma same_val n e v : int64 n -> lits_ok e -> same n e v -> ~ faults n e -> val n e v.
Proof.
  intros Hn L H. revert L.
  induction H as [ds H| |e v H IH|e x H IH|e x H IH Hi|e x H IH|e x v H IH B Ht
                 |o a b x y v Ha IHa Hb IHb Ho X|a b Ha IHa|a b x y v Ha IHa Hx Hb IHb B Ht
                 |a b Ha IHa|a b x Ha IHa Hx Hb IHb|a b y v Ha IHa Hb IHb B Ht
                 |a b c v Ha IHa Hb IHb|a b c v Ha IHa Hc IHc|a b c x v Ha IHa Hb IHb Hc IHc]; cbn [lits_ok]; intros L F.
  - constructor; assumption.
  - constructor.
  - constructor. apply IH; auto. intros G; apply F; constructor; exact G.
  - eapply V_pre; [apply IH; auto|constructor]. intros G; apply F; constructor; exact G.
  - eapply V_pre; [apply IH; auto|constructor; apply wraps_self, Hi]. intros G; apply F; constructor; exact G.
  - eapply V_pre; [apply IH; auto|constructor]. intros G; apply F; constructor; exact G.
  - eapply V_pre; [apply IH; auto|].
    + intros G; apply F; constructor; exact G.
    + constructor. unfold truth in *; lia.
  - destruct L as [La Lb].
    assert (Va : val n a x) by (apply IHa; auto; intros G; apply F; apply F_bin_l; exact G).
    assert (Vb : val n b y) by (apply IHb; auto; intros G; apply F; apply F_bin_r; exact G).
    eapply V_bin; [exact Va|exact Vb|]. destruct (match o with BXor => true | _ => false end) eqn:E.
    + destruct o; try discriminate. destruct (X eq_refl) as [-> ->].
      replace v with 0; [apply xor_zero|]. inversion Ho; subst. eapply (bitwise_fun xorb 0 0); [|eassumption]. intros i _. rewrite Z.bits_0. reflexivity.
    + apply c_op_bin; [exact Ho|]. intros ->. discriminate.
  - destruct L as [La Lb]. destruct (val_or_faults n b Hn Lb) as [[y Hy]|G]; [|destruct F; apply F_bin_r, G].
    eapply V_bin; [apply IHa; auto; intros G; apply F; apply F_bin_l; exact G|exact Hy|].
    constructor. right. split; [|reflexivity]. intros [E _]. discriminate.
  - destruct L as [La Lb]. eapply V_bin.
    + apply IHa; auto; intros G; apply F; apply F_bin_l; exact G.
    + apply IHb; auto. intros G; apply F; apply F_bin_r; exact G.
    + constructor. unfold truth in *; lia.
  - destruct L as [La Lb]. destruct (val_or_faults n b Hn Lb) as [[y Hy]|G]; [|destruct F; apply F_bin_r, G].
    eapply V_bin; [apply IHa; auto; intros G; apply F; apply F_bin_l; exact G|exact Hy|].
    constructor. left. split; [left|]; reflexivity.
  - destruct L as [La Lb]. eapply V_bin.
    + apply IHa; auto; intros G; apply F; apply F_bin_l; exact G.
    + apply IHb; auto. intros G; apply F; apply F_bin_r; exact G.
    + constructor. left. split; [right|]; reflexivity.
  - destruct L as [La Lb]. eapply V_bin.
    + apply IHa; auto; intros G; apply F; apply F_bin_l; exact G.
    + apply IHb; auto. intros G; apply F; apply F_bin_r; exact G.
    + constructor. unfold truth in *; lia.
  - destruct L as (La & Lb & Lc). destruct (val_or_faults n c Hn Lc) as [[z Hz]|G]; [|destruct F; apply F_cond_c, G].
    eapply V_cond_t; [apply IHa; auto; intros G; apply F; apply F_cond_a; exact G|apply IHb; auto|exact Hz].
    intros G; apply F; apply F_cond_b; exact G.
  - destruct L as (La & Lb & Lc). destruct (val_or_faults n b Hn Lb) as [[z Hz]|G]; [|destruct F; apply F_cond_b, G].
    eapply V_cond_f; [apply IHa; auto; intros G; apply F; apply F_cond_a; exact G|discriminate|exact Hz|apply IHc; auto].
    intros G; apply F; apply F_cond_c; exact G.
  - destruct L as (La & Lb & Lc).
    assert (Va : val n a x) by (apply IHa; auto; intros G; apply F; apply F_cond_a; exact G).
    assert (Vb : val n b v) by (apply IHb; auto; intros G; apply F; apply F_cond_b; exact G).
    assert (Vc : val n c v) by (apply IHc; auto; intros G; apply F; apply F_cond_c; exact G).
    destruct (Z.eq_dec x 1) as [-> | N]; [eapply V_cond_t; eassumption|eapply V_cond_f; eassumption].
Qed.

(** ** Every text of C is read, and as C reads it exactly without [a >= b < c] *)
Lemma gram_no_ge k w e : gram k w e -> (9 <= k)%nat -> ~ is_ge_le e.
Proof.
  induction 1 as [t o k w1 w2 a b Ht Ha IHa Hb IHb|w1 w2 w3 a b c Ha IHa Hb IHb Hc IHc|t o w e Ht H IH|t o w e Ht H IH|w e H IH| |ds|k w e H1 H2 H IH];
    cbn [is_ge_le]; try tauto.
  - intros K. inversion Ht; subst; cbn [is_ge_le]; try tauto; lia.
  - intros K. apply IH. lia.
Qed.
Lemma gram_plain k w e : gram k w e -> rel_plain e.
Proof.
  induction 1 as [t o k w1 w2 a b Ht Ha IHa Hb IHb|w1 w2 w3 a b c Ha IHa Hb IHb Hc IHc|t o w e Ht H IH|t o w e Ht H IH|w e H IH| |ds|k w e H1 H2 H IH];
    cbn [rel_plain]; auto.
  split; [exact IHa|split; [exact IHb|]]. inversion Ht; subst; try exact I; apply (gram_no_ge _ _ _ Ha); lia.
Qed.
(** an operand of > or < behind whatever stands at the level of >= *)
Lemma behind_ge t o w1 w2 a b : bin_level t o 9 -> gram 8 w1 a -> gram 10 w2 b -> exists e, gram 8 (w1 ++ t :: w2) e.
Proof.
  intros Ht Ha Hb. inversion Ha as [t' o' k' u1 u2 a1 a2 Ht' H1 H2 E1 E2 E3| | | | | | |k' w' e' K1 K2 H E1 E2 E3]; subst.
  - exists (EBin o' a1 (EBin o a2 b)). replace ((u1 ++ t' :: u2) ++ t :: w2) with (u1 ++ t' :: (u2 ++ t :: w2)) by (rewrite <- app_assoc; reflexivity).
    apply (G_bin t' o' 8); [exact Ht'|exact H1|]. apply (G_bin t o 9); assumption.
  - exists (EBin o a b). apply G_up; [lia|lia|]. apply (G_bin t o 9); assumption.
Qed.
Lemma cgram_read k w e : cgram k w e -> exists e', gram (lift k) w e'.
Proof.
  induction 1 as [t o k w1 w2 a b Ht Ha [a' A] Hb [b' B]|w1 w2 w3 a b c Ha [a' A] Hb [b' B] Hc [c' C]
                 |t o w e Ht H [e' E]|w e H [e' E]| |ds|k w e H1 H2 H [e' E]].
  - inversion Ht; subst; cbn [lift Nat.leb] in *;
      try (eexists; eapply G_bin; [constructor|exact A|exact B]; fail).
    + eapply behind_ge; [constructor|exact A|exact B].
    + eapply behind_ge; [constructor|exact A|exact B].
    + eexists; eapply G_bin; [constructor|exact A|apply G_up; [lia|lia|exact B]].
    + eexists; eapply G_bin; [constructor|exact A|apply G_up; [lia|lia|exact B]].
  - eexists. apply G_cond; [exact A|exact B|exact C].
  - eexists. apply G_pre; [inversion Ht; constructor|exact E].
  - eexists. apply G_paren, E.
  - eexists. apply G_var.
  - eexists. apply G_int.
  - exists e'. pose proof (cgram_range _ _ _ H) as K.
    apply (gram_le w e' (lift k) (lift (S k))); try exact E; unfold lift;
      destruct (Nat.leb_spec k 8), (Nat.leb_spec k 12), (Nat.leb_spec (S k) 8), (Nat.leb_spec (S k) 12); lia.
Qed.
