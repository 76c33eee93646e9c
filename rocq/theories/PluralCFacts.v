(** C04: agreement with C on a fragment, and the four ways it fails outside. *)
From Verif Require Import GoStr GoStrFacts PluralModel PluralSpec PluralCSpec PluralLexFacts
  PluralParseFacts PluralEvalFacts PluralTextFacts.
From Coq Require Import Lia ZifyBool ZifyNat ZifyN.

Definition lift (k : nat) : nat := if Nat.leb k 8 then k else if Nat.leb k 12 then S k else 15.
Lemma gram_ups w e : forall d k, 1 <= k -> k + d <= 15 -> gram (k + d) w e -> gram k w e.
Proof.
  induction d as [|d IH]; intros k H1 H2 H; [rewrite Nat.add_0_r in H; exact H|].
  apply G_up; [exact H1|lia|]. apply IH; [lia|lia|].
  replace (S k + d) with (k + S d) by lia. exact H.
Qed.
Lemma gram_le w e k j : 1 <= k -> k <= j -> j <= 15 -> gram j w e -> gram k w e.
Proof.
  intros H1 H2 H3 H. apply (gram_ups w e (j - k)); [exact H1|lia|].
  replace (k + (j - k)) with j by lia. exact H.
Qed.
Lemma cgram_range k w e : cgram k w e -> 1 <= k <= 13.
Proof. induction 1; lia. Qed.
Lemma cgram_gram k w e : cgram k w e -> rel_plain e ->
  gram (lift k) w e /\ (k = 8 -> ~ is_ge_le e -> gram 9 w e).
Proof.
  induction 1 as [t o k w1 w2 a b Ht Ha IHa Hb IHb|w1 w2 w3 a b c Ha IHa Hb IHb Hc IHc
                 |t o w e Ht H IH|w e H IH| |ds|k w e H1 H2 H IH]; cbn [rel_plain]; intros R.
  - destruct R as (Ra & Rb & Ro). destruct (IHa Ra) as [A1 A2], (IHb Rb) as [B1 B2].
    inversion Ht; subst; cbn [lift Nat.leb] in *;
      try (split; [eapply G_bin; [constructor|exact A1|exact B1]|intros; discriminate]).
    + (* > *) assert (G : gram 9 (w1 ++ KGt :: w2) (EBin BGt a b)).
      { eapply G_bin; [constructor|exact (A2 eq_refl Ro)|exact B1]. }
      split; [apply G_up; [lia|lia|exact G]|intros _ _; exact G].
    + assert (G : gram 9 (w1 ++ KLt :: w2) (EBin BLt a b)).
      { eapply G_bin; [constructor|exact (A2 eq_refl Ro)|exact B1]. }
      split; [apply G_up; [lia|lia|exact G]|intros _ _; exact G].
    + split; [eapply G_bin; [constructor|exact A1|apply G_up; [lia|lia|exact B1]]|].
      intros _ N. destruct N. exact I.
    + split; [eapply G_bin; [constructor|exact A1|apply G_up; [lia|lia|exact B1]]|].
      intros _ N. destruct N. exact I.
  - destruct R as (Ra & Rb & Rc). split; [|discriminate].
    apply G_cond; [apply IHa, Ra|apply IHb, Rb|apply IHc, Rc].
  - split; [|discriminate]. apply G_pre; [inversion Ht; constructor|apply IH, R].
  - split; [|discriminate]. apply G_paren, IH, R.
  - split; [apply G_var|discriminate].
  - split; [apply G_int|discriminate].
  - destruct (IH R) as [G1 G2]. pose proof (cgram_range _ _ _ H) as K.
    assert (G : gram (lift (S k)) w e) by exact G1. split.
    + apply (gram_le w e (lift k) (lift (S k))); try exact G; unfold lift;
        destruct (Nat.leb_spec k 8), (Nat.leb_spec k 12), (Nat.leb_spec (S k) 8), (Nat.leb_spec (S k) 12); lia.
    + intros -> _. apply G_up; [lia|lia|exact G].
Qed.
(** the C reading of a text is the library's reading *)
Theorem c_text_wf s e : c_text s e -> rel_plain e -> wf_text s e.
Proof.
  intros (ts & Hl & Hg) R. exists ts. split; [exact Hl|]. apply (proj1 (cgram_gram _ _ _ Hg R)).
Qed.

Local Open Scope Z_scope.
Lemma boolean_01 n e v : cval n e v -> boolean e -> v = 0 \/ v = 1.
Proof.
  induction 1 as [ds H| |e v H IH|e x H IH|e x H IH Hi|e x H IH|e x v H IH Ht
                 |o a b x y v Ha IHa Hb IHb Ho|a b Ha IHa|a b x y v Ha IHa Hx Hb IHb Ht
                 |a b x Ha IHa Hx|a b y v Ha IHa Hb IHb Ht
                 |a b c x v Ha IHa Hx Hb IHb|a b c v Ha IHa Hc IHc]; cbn [boolean]; intros B; try contradiction;
    try (destruct Ht; lia); try (apply IH; assumption); try tauto.
  destruct o; try contradiction; inversion Ho; subst;
    match goal with T : truth _ _ |- _ => destruct T; lia end.
Qed.
Lemma wraps_self z : int64 z -> wraps z z.
Proof. intros H. split; [exact H|]. exists 0. lia. Qed.
Lemma c_op_bin o l r v : c_op o l r v -> o <> BXor -> bin_val o l r v.
Proof.
  intros H N. destruct H; try congruence; try (constructor; assumption).
  - constructor; apply wraps_self; assumption.
  - econstructor; [eassumption|apply wraps_self; assumption].
  - econstructor; eassumption.
  - constructor; apply wraps_self; assumption.
  - constructor; apply wraps_self; assumption.
  - constructor; [lia|apply wraps_self; assumption].
  - constructor; [lia|assumption].
Qed.
Lemma val_or_faults n e : int64 n -> lits_ok e -> (exists v, val n e v) \/ faults n e.
Proof. intros Hn L. destruct (walk_spec n e Hn L) as [(v & H & _)|[H _]]; eauto. Qed.
(** where C defines a value and nothing in the text faults, the value agrees *)
Theorem cval_val n e v : int64 n -> lits_ok e -> clean e -> cval n e v -> ~ faults n e -> val n e v.
Proof.
  intros Hn L C H. revert L C.
  induction H as [ds H| |e v H IH|e x H IH|e x H IH Hi|e x H IH|e x v H IH Ht
                 |o a b x y v Ha IHa Hb IHb Ho|a b Ha IHa|a b x y v Ha IHa Hx Hb IHb Ht
                 |a b x Ha IHa Hx|a b y v Ha IHa Hb IHb Ht
                 |a b c x v Ha IHa Hx Hb IHb|a b c v Ha IHa Hc IHc]; cbn [lits_ok clean]; intros L C F.
  - constructor; assumption.
  - constructor.
  - constructor. apply IH; auto. intros G; apply F; constructor; exact G.
  - destruct C as [C _]. eapply V_pre; [apply IH; auto|constructor]. intros G; apply F; constructor; exact G.
  - destruct C as [C _]. eapply V_pre; [apply IH; auto|constructor; apply wraps_self, Hi].
    intros G; apply F; constructor; exact G.
  - destruct C as [C _]. eapply V_pre; [apply IH; auto|constructor]. intros G; apply F; constructor; exact G.
  - destruct C as [C B]. eapply V_pre.
    + apply IH; auto. intros G; apply F; constructor; exact G.
    + constructor. destruct (boolean_01 _ _ _ H B) as [-> | ->]; unfold truth in *; lia.
  - destruct L as [La Lb], C as (Ca & Cb & Co). eapply V_bin.
    + apply IHa; auto. intros G; apply F; apply F_bin_l; exact G.
    + apply IHb; auto. intros G; apply F; apply F_bin_r; exact G.
    + apply c_op_bin; [exact Ho|]. intros ->. contradiction.
  - destruct L as [La Lb], C as (Ca & Cb & Bo).
    destruct (val_or_faults n b Hn Lb) as [[y Hy]|G]; [|destruct F; apply F_bin_r, G].
    eapply V_bin; [apply IHa; auto|exact Hy|].
    + intros G; apply F; apply F_bin_l; exact G.
    + constructor. right. split; [|reflexivity]. intros [E _]. discriminate.
  - destruct L as [La Lb], C as (Ca & Cb & Ba & Bb). eapply V_bin.
    + apply IHa; auto. intros G; apply F; apply F_bin_l; exact G.
    + apply IHb; auto. intros G; apply F; apply F_bin_r; exact G.
    + constructor. destruct (boolean_01 _ _ _ Ha Ba) as [-> | ->]; [congruence|].
      destruct (boolean_01 _ _ _ Hb Bb) as [-> | ->]; unfold truth in *; lia.
  - destruct L as [La Lb], C as (Ca & Cb & Ba & Bb).
    destruct (val_or_faults n b Hn Lb) as [[y Hy]|G]; [|destruct F; apply F_bin_r, G].
    eapply V_bin; [apply IHa; auto|exact Hy|].
    + intros G; apply F; apply F_bin_l; exact G.
    + constructor. left. split; [|reflexivity]. left.
      destruct (boolean_01 _ _ _ Ha Ba); congruence.
  - destruct L as [La Lb], C as (Ca & Cb & Ba & Bb). eapply V_bin.
    + apply IHa; auto. intros G; apply F; apply F_bin_l; exact G.
    + apply IHb; auto. intros G; apply F; apply F_bin_r; exact G.
    + constructor. destruct (boolean_01 _ _ _ Hb Bb) as [-> | ->]; unfold truth in *; lia.
  - destruct L as (La & Lb & Lc), C as (Ca & Ba & Cb & Cc).
    destruct (val_or_faults n c Hn Lc) as [[z Hz]|G]; [|destruct F; apply F_cond_c, G].
    eapply V_cond_t; [|apply IHb; auto|exact Hz].
    + destruct (boolean_01 _ _ _ Ha Ba) as [-> | ->]; [congruence|]. apply IHa; auto.
      intros G; apply F; apply F_cond_a; exact G.
    + intros G; apply F; apply F_cond_b; exact G.
  - destruct L as (La & Lb & Lc), C as (Ca & Ba & Cb & Cc).
    destruct (val_or_faults n b Hn Lb) as [[z Hz]|G]; [|destruct F; apply F_cond_b, G].
    eapply V_cond_f; [apply IHa; auto|discriminate|exact Hz|apply IHc; auto].
    + intros G; apply F; apply F_cond_a; exact G.
    + intros G; apply F; apply F_cond_c; exact G.
Qed.
Theorem eval_c_fragment s e n v : c_text s e -> rel_plain e -> clean e -> int64 n -> cval n e v ->
  (eval s n = EvOk v /\ ~ faults n e) \/ (eval s n = EvErr /\ faults n e).
Proof.
  intros Ht R C Hn Hv. pose proof (c_text_wf _ _ Ht R) as W. pose proof (wf_text_lits _ _ W) as L.
  destruct (eval_wf s e n W Hn) as [E1 E2].
  destruct (val_or_faults n e Hn L) as [[u Hu]|F].
  - left. assert (N : ~ faults n e) by (intros F; exact (val_not_faults n e u Hn L Hu F)).
    split; [|exact N]. apply E1. apply cval_val; assumption.
  - right. split; [apply E2, F|exact F].
Qed.

(** computing the layout of a literal text *)
Lemma lex_layout s ts : lex s = ts -> forallb (fun t => match t with KErr => false | _ => true end) ts = true ->
  layout ts s.
Proof.
  intros H1 H2. apply lex_iff_layout. split; [exact H1|]. intros Hi.
  rewrite forallb_forall in H2. specialize (H2 _ Hi). discriminate.
Qed.
