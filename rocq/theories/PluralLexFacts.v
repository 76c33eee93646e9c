(** The lexer is maximal munch: [lex s = ts] exactly if [layout ts s]. *)
From Verif Require Import GoStr GoStrFacts PluralModel PluralSpec.
From Coq Require Import Lia ZifyBool ZifyNat ZifyN.

Definition not_int (t : tok) : Prop := match t with KInt _ => False | _ => True end.

Lemma two_text c d k : two c d = Some k -> text k = [c; d] /\ tok_ok k /\ not_int k.
Proof.
  unfold two. intros H.
  repeat match type of H with
  | (if ?b then _ else _) = _ =>
      destruct b eqn:?;
      [ match goal with E : _ && _ = true |- _ =>
          apply andb_true_iff in E as [E1 E2]; apply Ascii.eqb_eq in E1, E2; subst end;
        injection H as <-; repeat split; fail |]
  end. discriminate.
Qed.
Lemma text_two k c d : tok_ok k -> not_int k -> text k = [c; d] -> two c d = Some k.
Proof.
  intros H1 H2 H3. destruct k; try destruct H1; try destruct H2; cbn in H3; try discriminate H3;
    injection H3 as <- <-; reflexivity.
Qed.
Lemma one_text c : one c <> KErr -> text (one c) = [c] /\ tok_ok (one c) /\ not_int (one c).
Proof.
  unfold one. intros H.
  repeat match goal with
  | H : (if ?b then _ else _) <> _ |- _ =>
      destruct b eqn:?;
      [ match goal with E : Ascii.eqb _ _ = true |- _ => apply Ascii.eqb_eq in E; subst end;
        repeat split; fail |]
  end. congruence.
Qed.
Lemma text_one k c : tok_ok k -> not_int k -> text k = [c] -> one c = k.
Proof.
  intros H1 H2 H3. destruct k; try destruct H1; try destruct H2; cbn in H3; try discriminate H3;
    injection H3 as <-; reflexivity.
Qed.
Lemma text_len k : tok_ok k -> not_int k ->
  (exists c, text k = [c]) \/ (exists c d, text k = [c; d]).
Proof.
  intros H1 H2. destruct k; try (destruct H1; fail); try (destruct H2; fail); cbn; eauto.
Qed.
Lemma text_head k : tok_ok k -> not_int k -> exists c u, text k = c :: u /\ is_digit c = false /\ is_ws c = false.
Proof.
  intros H1 H2. destruct k; try (destruct H1; fail); try (destruct H2; fail); cbn;
    eexists _, _; repeat split.
Qed.
Lemma is_digit_range c : is_digit c = true <-> (48 <= code c <= 57)%N.
Proof. unfold is_digit, in_range. lia. Qed.
Lemma digit_not_ws c : is_digit c = true -> is_ws c = false.
Proof.
  rewrite is_digit_range. intros H. unfold is_ws. apply orb_false_iff.
  split; apply Ascii.eqb_neq; intros ->; cbn in H; lia.
Qed.
Lemma is_ws_blank c : is_ws c = true <-> c = " "%char \/ c = "009"%char.
Proof.
  unfold is_ws. rewrite orb_true_iff, !Ascii.eqb_eq. reflexivity.
Qed.

Lemma lex_blank b s : blank b -> lex (b ++ s) = lex s.
Proof.
  induction b as [|c b IH]; intros H; [reflexivity|]. cbn [app lex].
  assert (W : is_ws c = true) by (apply is_ws_blank, H; left; reflexivity).
  rewrite W. apply IH. intros x Hx. apply H. right; exact Hx.
Qed.

(** a run of digits not followed by a digit *)
Lemma lex_digits ds s : ds <> [] -> (forall c, In c ds -> is_digit c = true) ->
  (match s with d :: _ => is_digit d = false | [] => True end) ->
  lex (ds ++ s) = KInt ds :: lex s.
Proof.
  intros Hne Hd Hs. induction ds as [|c ds IH]; [congruence|].
  assert (Hc : is_digit c = true) by (apply Hd; left; reflexivity).
  cbn [app lex]. rewrite (digit_not_ws c Hc), Hc.
  destruct ds as [|d ds].
  - cbn [app]. destruct s as [|x s]; [reflexivity|]. rewrite Hs. reflexivity.
  - assert (Hd' : is_digit d = true) by (apply Hd; right; left; reflexivity).
    specialize (IH ltac:(discriminate) (fun x Hx => Hd x (or_intror Hx))).
    cbn [app] in *. rewrite Hd', IH. reflexivity.
Qed.

Definition maximal (t : tok) (s : bytes) : Prop :=
  forall t' x, tok_ok t' -> text t ++ s = text t' ++ x -> length (text t') <= length (text t).

Lemma lex_tok t s : tok_ok t -> maximal t s -> lex (text t ++ s) = t :: lex s.
Proof.
  intros Ht Hm. destruct (match t with KInt _ => true | _ => false end) eqn:EI.
  - destruct t; try discriminate. cbn [text] in *. destruct Ht as [Hne Hd].
    apply lex_digits; [exact Hne|intros c Hc; apply is_digit_range, Hd, Hc|].
    destruct s as [|d s]; [exact I|]. destruct (is_digit d) eqn:E; [|reflexivity].
    assert (L : length (text (KInt (ds ++ [d]))) <= length (text (KInt ds))).
    { apply (Hm _ s).
      - split; [intros H; apply app_eq_nil in H as [_ H]; discriminate|].
        intros c Hc. apply in_app_or in Hc as [Hc|[<-|[]]]; [apply Hd, Hc|apply is_digit_range, E].
      - cbn [text]. rewrite <- app_assoc. reflexivity. }
    cbn [text] in L. rewrite app_length in L. cbn in L. lia.
  - assert (Hn : not_int t) by (destruct t; try discriminate EI; exact I).
    destruct (text_head t Ht Hn) as (c0 & u0 & E0 & D0 & W0).
    destruct (text_len t Ht Hn) as [[c E]|(c & d & E)].
    + rewrite E in *. injection E0 as <- <-. cbn [app lex]. rewrite W0, D0.
      destruct s as [|d s].
      * rewrite (text_one t c Ht Hn E). reflexivity.
      * destruct (two c d) as [k|] eqn:T.
        -- destruct (two_text _ _ _ T) as (Tk & Ok & Nk).
           specialize (Hm k s Ok). rewrite Tk, E in Hm. specialize (Hm eq_refl). cbn in Hm. lia.
        -- rewrite (text_one t c Ht Hn E). reflexivity.
    + rewrite E in *. injection E0 as <- <-. cbn [app lex]. rewrite W0, D0.
      rewrite (text_two t c d Ht Hn E). reflexivity.
Qed.

Lemma layout_lex ts s : layout ts s -> lex s = ts.
Proof.
  intros H; induction H as [s Hb|b t ts s Hb Ht Hl IH Hm].
  - rewrite <- (app_nil_r s). rewrite lex_blank by exact Hb. reflexivity.
  - rewrite lex_blank by exact Hb. rewrite lex_tok by assumption. rewrite IH. reflexivity.
Qed.

Lemma layout_blank b ts s : blank b -> layout ts s -> layout ts (b ++ s).
Proof.
  intros Hb H. destruct H as [s Hs|b' t ts s Hb' Ht Hl Hm].
  - constructor. intros c Hc. apply in_app_or in Hc as [Hc|Hc]; auto.
  - rewrite app_assoc. constructor; auto.
    intros c Hc. apply in_app_or in Hc as [Hc|Hc]; auto.
Qed.

(** the digits at the front of a text *)
Fixpoint span_digits (s : bytes) : bytes * bytes :=
  match s with
  | [] => ([], [])
  | c :: t => if is_digit c then let (d, r) := span_digits t in (c :: d, r) else ([], s)
  end.
Lemma span_digits_spec s : let (d, r) := span_digits s in
  s = d ++ r /\ (forall c, In c d -> is_digit c = true)
  /\ match r with x :: _ => is_digit x = false | [] => True end.
Proof.
  induction s as [|c t IH]; cbn [span_digits]; [repeat split; intros ? []|].
  destruct (is_digit c) eqn:E.
  - destruct (span_digits t) as [d r]. destruct IH as (H1 & H2 & H3).
    repeat split; [cbn; f_equal; exact H1| |exact H3].
    intros x [<-|Hx]; [exact E|apply H2, Hx].
  - repeat split; [intros ? []|exact E].
Qed.

Lemma lex_layout_aux : forall m s, length s <= m -> ~ In KErr (lex s) -> layout (lex s) s.
Proof.
  induction m as [|m IH]; intros s Hm He.
  - destruct s; [|cbn in Hm; lia]. constructor. intros ? [].
  - destruct s as [|c t]; [constructor; intros ? []|].
    destruct (is_ws c) eqn:W.
    { cbn [lex] in *. rewrite W in *. change (c :: t) with ([c] ++ t). apply layout_blank.
      - intros x [<-|[]]. apply is_ws_blank, W.
      - apply IH; [cbn in Hm; lia|exact He]. }
    destruct (is_digit c) eqn:D.
    { pose proof (span_digits_spec (c :: t)) as Hsp. cbn [span_digits] in Hsp.
      rewrite D in Hsp. destruct (span_digits t) as [d r].
      destruct Hsp as (H1 & H2 & H3). rewrite H1 in *.
      rewrite lex_digits in *; [| |exact H2|exact H3| |exact H2|exact H3]; try discriminate.
      assert (G : layout (KInt (c :: d) :: lex r) ([] ++ text (KInt (c :: d)) ++ r)).
      { constructor.
        - intros ? [].
        - split; [discriminate|]. intros x Hx. apply is_digit_range, H2, Hx.
        - apply IH; [cbn in Hm; rewrite app_length in Hm; lia|].
          intros Hx. apply He. right; exact Hx.
        - intros t' x Ht' Heq. cbn [text] in *.
          destruct (match t' with KInt _ => true | _ => false end) eqn:EI.
          + destruct t'; try discriminate. cbn [text] in *.
            destruct (Nat.le_gt_cases (length ds) (length (c :: d))) as [L|L]; [exact L|].
            exfalso. destruct Ht' as [_ Hds].
            assert (E : nth_error ((c :: d) ++ r) (length (c :: d)) = nth_error (ds ++ x) (length (c :: d)))
              by (rewrite Heq; reflexivity).
            rewrite nth_error_app2, Nat.sub_diag in E by lia.
            rewrite nth_error_app1 in E by lia.
            destruct r as [|y r]; cbn [nth_error] in E.
            * symmetry in E. apply nth_error_None in E. lia.
            * symmetry in E. apply nth_error_In in E. apply Hds, is_digit_range in E. congruence.
          + assert (Hn : not_int t') by (destruct t'; try discriminate EI; exact I).
            destruct (text_head t' Ht' Hn) as (c0 & u0 & E0 & D0 & _).
            rewrite E0 in Heq. cbn in Heq. injection Heq as Heq _. congruence. }
      exact G. }
    assert (Max1 : forall t0 tl, tok_ok t0 -> not_int t0 -> c :: t = text t0 ++ tl ->
              (forall d k, two c d = Some k -> text t0 = [c] -> hd_error t <> Some d) -> maximal t0 tl).
    { intros t0 tl H0 N0 E0 H2 t' x Ht' Heq.
      destruct (match t' with KInt _ => true | _ => false end) eqn:EI.
      - destruct t'; try discriminate. cbn [text] in *. destruct Ht' as [Hne Hds].
        destruct ds as [|y ds]; [congruence|]. rewrite <- E0 in Heq. cbn in Heq. injection Heq as <- _.
        assert (is_digit c = true) by (apply is_digit_range, Hds; left; reflexivity). congruence.
      - assert (Hn : not_int t') by (destruct t'; try discriminate EI; exact I).
        destruct (text_len t0 H0 N0) as [[a A]|(a & b & A)];
          destruct (text_len t' Ht' Hn) as [[a' A']|(a' & b' & A')]; rewrite A, A' in *; cbn; try lia.
        exfalso. rewrite <- E0 in Heq. cbn in Heq, E0. injection Heq as <- Heq. injection E0 as <- E0.
        apply (H2 b' t').
        + apply text_two; assumption.
        + reflexivity.
        + rewrite Heq. reflexivity. }
    cbn [lex] in He |- *. rewrite W, D in *.
    destruct t as [|d t'].
    + destruct (one_text c) as (E & O & Nn); [intros H; apply He; left; exact H|].
      assert (G : layout [one c] ([] ++ text (one c) ++ [])).
      { constructor; [intros ? []|exact O|constructor; intros ? []|].
        apply Max1; [exact O|exact Nn|rewrite E; reflexivity|]. cbn. discriminate. }
      rewrite E in G. exact G.
    + destruct (two c d) as [k|] eqn:T.
      * destruct (two_text _ _ _ T) as (E & O & Nn).
        assert (G : layout (k :: lex t') ([] ++ text k ++ t')).
        { constructor; [intros ? []|exact O| |].
          - apply IH; [cbn in Hm; lia|]. intros Hx; apply He; right; exact Hx.
          - apply Max1; [exact O|exact Nn|rewrite E; reflexivity|].
            intros ? ? _ Hx. rewrite E in Hx. discriminate. }
        rewrite E in G. exact G.
      * destruct (one_text c) as (E & O & Nn); [intros H; apply He; left; exact H|].
        assert (G : layout (one c :: lex (d :: t')) ([] ++ text (one c) ++ (d :: t'))).
        { constructor; [intros ? []|exact O| |].
          - apply IH; [cbn in Hm |- *; lia|]. intros Hx; apply He; right; exact Hx.
          - apply Max1; [exact O|exact Nn|rewrite E; reflexivity|].
            intros d0 k0 Hk _ Hx. cbn in Hx. injection Hx as <-. congruence. }
        rewrite E in G. exact G.
Qed.

Theorem lex_iff_layout ts s : layout ts s <-> lex s = ts /\ ~ In KErr ts.
Proof.
  split.
  - intros H. split; [apply layout_lex, H|].
    clear -H. induction H as [|b t ts s Hb Ht Hl IH Hm]; [intros []|].
    intros [->|Hi]; [destruct Ht|apply IH, Hi].
  - intros [<- H]. apply (lex_layout_aux (length s)); [lia|exact H].
Qed.

(** ** Prefixes *)
Lemma munch_lex ts s r : munch ts s r -> lex s = ts ++ lex r.
Proof.
  induction 1 as [s|b t ts s r Hb Ht Hl IH Hm]; [reflexivity|].
  rewrite lex_blank by exact Hb. rewrite lex_tok by assumption. rewrite IH. reflexivity.
Qed.
Lemma lex_nil_blank s : lex s = [] -> blank s.
Proof.
  intros H. assert (L : layout (lex s) s).
  { apply (lex_layout_aux (length s)); [apply le_n|]. rewrite H. intros []. }
  rewrite H in L. inversion L; assumption.
Qed.
Lemma lex_step : forall s t r, lex s = t :: r -> t <> KErr ->
  exists b s', s = b ++ text t ++ s' /\ blank b /\ tok_ok t /\ maximal t s' /\ lex s' = r.
Proof.
  induction s as [|c t IH]; intros k r H Hk; [discriminate|].
  destruct (is_ws c) eqn:W.
  { cbn [lex] in H. rewrite W in H. destruct (IH _ _ H Hk) as (b & s' & -> & Hb & R).
    exists (c :: b), s'. split; [reflexivity|]. split; [|exact R].
    intros x [<-|Hx]; [apply is_ws_blank, W|apply Hb, Hx]. }
  clear IH. exists []. destruct (is_digit c) eqn:D.
  { pose proof (span_digits_spec (c :: t)) as Hsp. cbn [span_digits] in Hsp.
    rewrite D in Hsp. destruct (span_digits t) as [d r0].
    destruct Hsp as (H1 & H2 & H3). rewrite H1 in *.
    rewrite lex_digits in H; [|discriminate|exact H2|exact H3]. injection H as <- <-.
    exists r0. split; [reflexivity|]. split; [intros ? []|]. split.
    - split; [discriminate|]. intros x Hx. apply is_digit_range, H2, Hx.
    - split; [|reflexivity]. intros t' x Ht' Heq. cbn [text] in *.
      destruct (match t' with KInt _ => true | _ => false end) eqn:EI.
      + destruct t'; try discriminate. cbn [text] in *.
        destruct (Nat.le_gt_cases (length ds) (length (c :: d))) as [L|L]; [exact L|].
        exfalso. destruct Ht' as [_ Hds].
        assert (E : nth_error ((c :: d) ++ r0) (length (c :: d)) = nth_error (ds ++ x) (length (c :: d)))
          by (rewrite Heq; reflexivity).
        rewrite nth_error_app2, Nat.sub_diag in E by lia.
        rewrite nth_error_app1 in E by lia.
        destruct r0 as [|y r0]; cbn [nth_error] in E.
        * symmetry in E. apply nth_error_None in E. lia.
        * symmetry in E. apply nth_error_In in E. apply Hds, is_digit_range in E. congruence.
      + assert (Hn : not_int t') by (destruct t'; try discriminate EI; exact I).
        destruct (text_head t' Ht' Hn) as (c0 & u0 & E0 & D0 & _).
        rewrite E0 in Heq. cbn in Heq. injection Heq as Heq _. congruence. }
  assert (Max1 : forall t0 tl, tok_ok t0 -> not_int t0 -> c :: t = text t0 ++ tl ->
            (forall d k, two c d = Some k -> text t0 = [c] -> hd_error t <> Some d) -> maximal t0 tl).
  { intros t0 tl H0 N0 E0 H2 t' x Ht' Heq.
    destruct (match t' with KInt _ => true | _ => false end) eqn:EI.
    - destruct t'; try discriminate. cbn [text] in *. destruct Ht' as [Hne Hds].
      destruct ds as [|y ds]; [congruence|]. rewrite <- E0 in Heq. cbn in Heq. injection Heq as <- _.
      assert (is_digit c = true) by (apply is_digit_range, Hds; left; reflexivity). congruence.
    - assert (Hn : not_int t') by (destruct t'; try discriminate EI; exact I).
      destruct (text_len t0 H0 N0) as [[a A]|(a & b & A)];
        destruct (text_len t' Ht' Hn) as [[a' A']|(a' & b' & A')]; rewrite A, A' in *; cbn; try lia.
      exfalso. rewrite <- E0 in Heq. cbn in Heq, E0. injection Heq as <- Heq. injection E0 as <- E0.
      apply (H2 b' t').
      + apply text_two; assumption.
      + reflexivity.
      + rewrite Heq. reflexivity. }
  cbn [lex] in H. rewrite W, D in H.
  destruct t as [|d t'].
  - injection H as <- <-. destruct (one_text c Hk) as (E & O & Nn).
    exists []. rewrite E. repeat split; try assumption; try solve [intros ? []].
    apply Max1; [exact O|exact Nn|rewrite E; reflexivity|]. cbn. discriminate.
  - destruct (two c d) as [k0|] eqn:T; injection H as <- <-.
    + destruct (two_text _ _ _ T) as (E & O & Nn). exists t'. rewrite E.
      repeat split; try assumption; try solve [intros ? []].
      apply Max1; [exact O|exact Nn|rewrite E; reflexivity|].
      intros ? ? _ Hx. rewrite E in Hx. discriminate.
    + destruct (one_text c Hk) as (E & O & Nn). exists (d :: t'). rewrite E.
      repeat split; try assumption; try solve [intros ? []].
      apply Max1; [exact O|exact Nn|rewrite E; reflexivity|].
      intros d0 k0 Hk0 _ Hx. cbn in Hx. injection Hx as <-. congruence.
Qed.
Lemma lex_munch s ts rest : lex s = ts ++ rest -> ~ In KErr ts ->
  exists r, munch ts s r /\ lex r = rest.
Proof.
  revert s; induction ts as [|t ts IH]; intros s H He; [exists s; split; [constructor|exact H]|].
  destruct (lex_step s t (ts ++ rest) H) as (b & s' & -> & Hb & Ht & Hm & E).
  { intros ->. apply He. left; reflexivity. }
  destruct (IH s' E) as (r & H1 & H2); [intros Hi; apply He; right; exact Hi|].
  exists r. split; [constructor; assumption|exact H2].
Qed.
