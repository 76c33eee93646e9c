(** Evaluation of texts: the fast path (C03), totality (C05), and the set of
    accepted texts (C06). *)
From Verif Require Import GoStr GoStrFacts PluralModel PluralSpec PluralLexFacts
  PluralParseFacts PluralEvalFacts.
From Coq Require Import Lia ZifyBool ZifyNat ZifyN.
Ltac Zify.zify_post_hook ::= Z.div_mod_to_equations.

Lemma wf_text_parse s e : wf_text s e -> parse_start (lex s) = POk e [].
Proof.
  intros (ts & Hl & Hg). rewrite (layout_lex _ _ Hl). rewrite <- (app_nil_r ts).
  apply parse_complete; try exact I. exact Hg.
Qed.
Lemma layout_tok_ok ts s : layout ts s -> Forall tok_ok ts.
Proof. induction 1; constructor; assumption. Qed.
Lemma gram_lits_ok k w e : gram k w e -> Forall tok_ok w -> lits_ok e.
Proof.
  induction 1; intros F; cbn [lits_ok]; auto;
    repeat (rewrite ?Forall_app, ?Forall_cons_iff in F); try tauto.
Qed.
Lemma wf_text_lits s e : wf_text s e -> lits_ok e.
Proof. intros (ts & Hl & Hg). eapply gram_lits_ok; [exact Hg|eapply layout_tok_ok, Hl]. Qed.

(** ** every token the lexer produces is well-formed or an error mark *)
Lemma lex_tok_ok : forall m s, length s <= m -> Forall (fun t => t = KErr \/ tok_ok t) (lex s).
Proof.
  induction m as [|m IH]; intros s Hm.
  - destruct s; [constructor|cbn in Hm; lia].
  - destruct s as [|c t]; [constructor|].
    destruct (is_ws c) eqn:W; [cbn [lex]; rewrite W; apply IH; cbn in Hm; lia|].
    destruct (is_digit c) eqn:D.
    + pose proof (span_digits_spec (c :: t)) as Hsp. cbn [span_digits] in Hsp.
      rewrite D in Hsp. destruct (span_digits t) as [d r]. destruct Hsp as (H1 & H2 & H3).
      rewrite H1. rewrite lex_digits; [|discriminate|exact H2|exact H3].
      constructor.
      * right. split; [discriminate|]. intros x Hx. apply is_digit_range, H2, Hx.
      * apply IH. apply (f_equal (@length _)) in H1. rewrite app_length in H1. cbn in H1, Hm. lia.
    + cbn [lex]. rewrite W, D.
      assert (O : one c = KErr \/ tok_ok (one c)).
      { destruct (one c) eqn:E; auto; right; rewrite <- E; apply one_text; rewrite E; discriminate. }
      destruct t as [|d t']; [constructor; [exact O|constructor]|].
      destruct (two c d) as [k|] eqn:T.
      * constructor; [right; apply (two_text _ _ _ T)|]. apply IH. cbn in Hm; lia.
      * constructor; [exact O|]. apply IH. cbn in Hm |- *; lia.
Qed.
Lemma gram_no_err k w e : gram k w e -> ~ In KErr w.
Proof.
  induction 1 as [t o k w1 w2 a b Ht Ha IHa Hb IHb
                 |w1 w2 w3 a b c Ha IHa Hb IHb Hc IHc|t o w e Ht H IH|t o w e Ht H IH
                 |w e H IH| |ds|k w e H1 H2 H IH]; cbn [In]; repeat (rewrite ?in_app_iff; cbn [In]); auto.
  - intros [H|[->|H]]; [tauto|inversion Ht|tauto].
  - intros [H|[E|[H|[E|H]]]]; try tauto; discriminate.
  - intros [->|H']; [inversion Ht|tauto].
  - intros [H'|[->|[]]]; [tauto|inversion Ht].
  - intros [E|[H'|[E|[]]]]; try tauto; discriminate.
  - intros [E|[]]; discriminate.
  - intros [E|[]]; discriminate.
Qed.
Lemma parsed_lits s e rest : parse_start (lex s) = POk e rest -> lits_ok e.
Proof.
  intros H. apply parse_sound in H as (w & E & Hg & _).
  eapply gram_lits_ok; [exact Hg|]. pose proof (lex_tok_ok (length s) s (le_n _)) as F.
  rewrite E, Forall_app in F. destruct F as [F _]. pose proof (gram_no_err _ _ _ Hg) as Hn.
  rewrite Forall_forall in *. intros x Hx. destruct (F x Hx) as [->|]; [contradiction|assumption].
Qed.

(** ** the general evaluator *)
Lemma eval_general_parsed s e rest n : parse_start (lex s) = POk e rest -> int64 n ->
  (exists v, val n e v /\ int64 v /\ eval_general s n = EvOk v)
  \/ (faults n e /\ eval_general s n = EvPanic).
Proof.
  intros H Hn. unfold eval_general. rewrite H.
  destruct (walk_spec n e Hn (parsed_lits _ _ _ H)) as [(v & H1 & H2 & H3)|[H1 H2]].
  - left. exists v. rewrite H3. auto.
  - right. rewrite H2. auto.
Qed.
Lemma assoc_bytes_in {A} k (l : list (bytes * A)) v : assoc_bytes k l = Some v -> In (k, v) l.
Proof.
  induction l as [|[k' v'] l IH]; cbn; [discriminate|].
  destruct (beq_spec k k') as [->|Hn]; intros H; [injection H as ->; left; reflexivity|right; apply IH, H].
Qed.

Lemma commons_small f k n : In (k, f) commons -> (0 <= f n <= 5)%Z.
Proof.
  unfold commons. intros H. cbn [In] in H.
  repeat (destruct H as [H|H];
    [injection H as _ <-; unfold gi, gif, b2z;
     repeat match goal with |- context[if ?b then _ else _] => destruct b end; lia|]).
  destruct H.
Qed.

(** C05: totality *)
Theorem eval_total s n : int64 n ->
  (exists v, eval s n = EvOk v /\ int64 v) \/ eval s n = EvErr.
Proof.
  intros Hn. unfold eval. destruct (assoc_bytes (remove_byte SP s) commons) as [f|] eqn:E.
  - left. exists (f n). split; [reflexivity|]. apply assoc_bytes_in in E.
    apply (commons_small _ _ n) in E. unfold int64. lia.
  - destruct (parse_start (lex s)) as [e rest| |] eqn:P.
    + destruct (eval_general_parsed _ _ _ n P Hn) as [(v & H1 & H2 & ->)|[H1 ->]]; cbn [recovered]; eauto.
    + right. unfold eval_general. rewrite P. reflexivity.
    + destruct (parse_start_fuel (lex s) P).
Qed.

(** ** C03 *)
(** each common formula, evaluated by the general evaluator *)
Ltac common_case n :=
  unfold eval_general;
  match goal with |- context[parse_start ?x] =>
    let y := eval vm_compute in (parse_start x) in
    replace (parse_start x) with y by (vm_compute; reflexivity) end;
  unfold gi, gif, rem10, rem100; cbn [walk];
  repeat match goal with |- context[parse_int ?d] =>
    let y := eval vm_compute in (parse_int d) in change (parse_int d) with y end;
  lazy -[Z.rem Z.eqb Z.ltb Z.gtb Z.leb Z.geb];
  change (Z.eqb 10 0) with false; change (Z.eqb 100 0) with false; cbv iota;
  repeat match goal with
  | |- context[Z.eqb (Z.rem n ?a) ?b] => destruct (Z.eqb (Z.rem n a) b)
  | |- context[Z.leb (Z.rem n ?a) ?b] => destruct (Z.leb (Z.rem n a) b)
  | |- context[Z.geb (Z.rem n ?a) ?b] => destruct (Z.geb (Z.rem n a) b)
  | |- context[Z.ltb (Z.rem n ?a) ?b] => destruct (Z.ltb (Z.rem n a) b)
  | |- context[Z.gtb (Z.rem n ?a) ?b] => destruct (Z.gtb (Z.rem n a) b)
  | |- context[Z.eqb n ?b] => destruct (Z.eqb n b)
  | |- context[Z.leb n ?b] => destruct (Z.leb n b)
  | |- context[Z.geb n ?b] => destruct (Z.geb n b)
  | |- context[Z.ltb n ?b] => destruct (Z.ltb n b)
  | |- context[Z.gtb n ?b] => destruct (Z.gtb n b)
  end; reflexivity.
Lemma commons_general_all n : Forall (fun kf => eval_general (fst kf) n = EvOk (snd kf n)) commons.
Proof.
  unfold commons. repeat (apply Forall_cons; [cbn [fst snd]; common_case n|]). apply Forall_nil.
Qed.
Lemma commons_general k f n : In (k, f) commons -> eval_general k n = EvOk (f n).
Proof.
  intros H. pose proof (commons_general_all n) as F. rewrite Forall_forall in F.
  apply (F _ H).
Qed.

(** Two tokens of a well-formed expression that never follow one another. *)
Definition bad (x y : tok) : bool :=
  match x, y with
  | KInt _, KInt _ => true
  | KAnd, KAnd => true
  | KOr, KOr => true
  | _, _ => false
  end.
Fixpoint noadj (l : list tok) : bool :=
  match l with
  | x :: r => match r with y :: _ => negb (bad x y) | [] => true end && noadj r
  | [] => true
  end.
Definition starts (w : list tok) : Prop :=
  exists x r, w = x :: r /\ x <> KAnd /\ x <> KOr.
Definition ends (w : list tok) : Prop :=
  exists r x, w = r ++ [x] /\ x <> KAnd /\ x <> KOr.
Lemma noadj_app a b : noadj a = true -> noadj b = true ->
  (forall r x y r', a = r ++ [x] -> b = y :: r' -> bad x y = false) -> noadj (a ++ b) = true.
Proof.
  intros Ha Hb H. induction a as [|x a IH]; [exact Hb|]. cbn [app noadj] in *.
  apply andb_true_iff in Ha as [H1 H2]. apply andb_true_iff. split.
  - destruct a as [|z a]; cbn [app]; [|exact H1].
    destruct b as [|y b]; [reflexivity|]. rewrite (H [] x y b); reflexivity.
  - apply IH; [exact H2|]. intros r z y r' E1 E2. apply (H (x :: r) z y r'); [rewrite E1; reflexivity|exact E2].
Qed.
Lemma gram_adj k w e : gram k w e -> noadj w = true /\ starts w /\ ends w.
Proof.
  assert (SA : forall a b, starts a -> starts (a ++ b)).
  { intros a b (x & r & -> & H). exists x, (r ++ b). auto. }
  assert (EA : forall a b, ends b -> ends (a ++ b)).
  { intros a b (r & x & -> & H). exists (a ++ r), x. rewrite app_assoc. auto. }
  assert (J : forall a t b, noadj a = true -> noadj b = true -> ends a -> starts b ->
     (forall ds, t <> KInt ds) -> noadj (a ++ t :: b) = true).
  { intros a t b Ha Hb (r & x & -> & Hx1 & Hx2) (y & r' & -> & Hy1 & Hy2) Ht.
    apply noadj_app; [exact Ha| |].
    - cbn [noadj] in *. rewrite Hb, andb_true_r.
      destruct t, y; try reflexivity; try congruence.
    - intros r0 x0 y0 r0' E1 E2. apply app_inj_tail in E1 as [<- <-]. injection E2 as <- <-.
      destruct x, t; try reflexivity; try congruence. }
  induction 1 as [t o k w1 w2 a b Ht Ha IHa Hb IHb
                 |w1 w2 w3 a b c Ha IHa Hb IHb Hc IHc|t o w e Ht H IH|t o w e Ht H IH
                 |w e H IH| |ds|k w e H1 H2 H IH].
  - destruct IHa as (A1 & A2 & A3), IHb as (B1 & B2 & B3). repeat split; auto.
    + apply J; auto. intros ds ->. inversion Ht.
    + apply EA. change (t :: w2) with ([t] ++ w2). apply EA, B3.
  - destruct IHa as (A1 & A2 & A3), IHb as (B1 & B2 & B3), IHc as (C1 & C2 & C3). repeat split; auto.
    + apply J; auto; [|discriminate]. apply J; auto. discriminate.
    + apply EA. change (KQ :: w2 ++ KColon :: w3) with ((KQ :: w2) ++ [KColon] ++ w3). apply EA, EA, C3.
  - destruct IH as (A1 & A2 & A3). repeat split; auto.
    + apply (noadj_app [t] w); [reflexivity|exact A1|]. intros r x y r' E1 E2.
      destruct r as [|? r]; [|destruct r; discriminate]. injection E1 as <-.
      inversion Ht; subst; destruct y; reflexivity.
    + exists t, w. split; [reflexivity|]. inversion Ht; subst; split; discriminate.
    + change (t :: w) with ([t] ++ w). apply EA, A3.
  - destruct IH as (A1 & A2 & A3). repeat split; auto.
    + apply noadj_app; [exact A1|reflexivity|]. intros r x y r' E1 E2. injection E2 as <- <-.
      inversion Ht; subst; destruct x; reflexivity.
    + exists w, t. split; [reflexivity|]. inversion Ht; subst; split; discriminate.
  - destruct IH as (A1 & A2 & A3). repeat split; auto.
    + apply (noadj_app [KLP]); [reflexivity| |].
      * apply noadj_app; [exact A1|reflexivity|]. intros r x y r' E1 E2. injection E2 as <- <-.
        destruct x; reflexivity.
      * intros r x y r' E1 E2. destruct r as [|? r]; [|destruct r; discriminate]. injection E1 as <-.
        destruct y; reflexivity.
    + exists KLP, (w ++ [KRP]). repeat split; discriminate.
    + exists (KLP :: w), KRP. repeat split; discriminate.
  - repeat split; [exists KN, []|exists [], KN]; repeat split; discriminate.
  - repeat split; [exists (KInt ds), []|exists [], (KInt ds)]; repeat split; discriminate.
  - exact IH.
Qed.

(** All ways of cutting a text without blanks into tokens that have no bad
    neighbours; [None] when the fuel is exhausted. *)
Definition cuts1 (s : bytes) : list (tok * bytes) :=
  match s with
  | [] => []
  | c :: t =>
      (match one c with KErr => [] | k => [(k, t)] end)
      ++ (match t with d :: t' => match two c d with Some k => [(k, t')] | None => [] end | [] => [] end)
      ++ map (fun i => (KInt (firstn i s), skipn i s))
             (filter (fun i => forallb is_digit (firstn i s)) (seq 1 (length s)))
  end.
Definition bad_opt (p : option tok) (y : tok) : bool :=
  match p with Some x => bad x y | None => false end.
Fixpoint cuts (fuel : nat) (p : option tok) (s : bytes) : list (list tok) :=
  match s with
  | [] => [[]]
  | _ =>
      match fuel with
      | O => []
      | S f =>
          flat_map (fun kt => if bad_opt p (fst kt) then []
                              else map (cons (fst kt)) (cuts f (Some (fst kt)) (snd kt)))
                   (cuts1 s)
      end
  end.
Lemma cuts1_in k s : tok_ok k -> In (k, s) (cuts1 (text k ++ s)).
Proof.
  intros Hk. destruct (match k with KInt _ => true | _ => false end) eqn:EI.
  - destruct k; try discriminate. cbn [text]. destruct Hk as [Hne Hd].
    destruct ds as [|c t]; [congruence|]. unfold cuts1.
    change ((c :: t) ++ s) with (c :: (t ++ s)). cbv iota beta.
    apply in_or_app; right. apply in_or_app; right.
    assert (F1 : firstn (length (c :: t)) (c :: t ++ s) = c :: t).
    { change (c :: t ++ s) with ((c :: t) ++ s).
      rewrite firstn_app, firstn_all, Nat.sub_diag. cbn [firstn]. apply app_nil_r. }
    assert (F2 : skipn (length (c :: t)) (c :: t ++ s) = s).
    { change (c :: t ++ s) with ((c :: t) ++ s).
      rewrite skipn_app, skipn_all, Nat.sub_diag. reflexivity. }
    apply in_map_iff. exists (length (c :: t)). rewrite F1, F2. split; [reflexivity|].
    apply filter_In. rewrite F1. split; [rewrite in_seq; cbn [length]; rewrite app_length; lia|].
    apply forallb_forall. intros x Hx. apply is_digit_range, Hd, Hx.
  - assert (Hn : not_int k) by (destruct k; try discriminate EI; exact I).
    destruct (text_len k Hk Hn) as [[c E]|(c & d & E)]; rewrite E; cbn [app cuts1].
    + apply in_or_app; left. rewrite (text_one k c Hk Hn E).
      destruct k; try (left; reflexivity). destruct Hk.
    + apply in_or_app; right. apply in_or_app; left. rewrite (text_two k c d Hk Hn E).
      left; reflexivity.
Qed.
Lemma cuts_in : forall ts f p, Forall tok_ok ts -> noadj ts = true ->
  match ts with y :: _ => bad_opt p y = false | [] => True end ->
  length (concat (map text ts)) <= f -> In ts (cuts f p (concat (map text ts))).
Proof.
  induction ts as [|t ts IH]; intros f p Hok Hadj Hp Hf; [destruct f; left; reflexivity|].
  inversion Hok as [|? ? Ht Hts]; subst. cbn [map concat] in *.
  assert (Hpos : text t <> []).
  { destruct t; cbn; try discriminate; [apply Ht|destruct Ht]. }
  destruct (text t ++ concat (map text ts)) as [|c u] eqn:E.
  { apply app_eq_nil in E as [E _]. contradiction. }
  destruct f as [|f]; [cbn in Hf; lia|]. cbn [cuts]. rewrite <- E.
  apply in_flat_map. exists (t, concat (map text ts)). split; [apply cuts1_in, Ht|].
  cbn [fst snd]. rewrite Hp. apply in_map. cbn [noadj] in Hadj. apply andb_true_iff in Hadj as [A1 A2].
  apply IH; auto.
  - destruct ts as [|y ts]; [exact I|]. cbn. apply negb_true_iff, A1.
  - rewrite <- E in Hf. rewrite app_length in Hf.
    destruct (text t); [congruence|]. cbn [length] in Hf. lia.
Qed.

Lemma commons_cuts : Forall (fun kf => cuts (length (fst kf)) None (fst kf) = [lex (fst kf)]) commons.
Proof. unfold commons. repeat (apply Forall_cons; [vm_compute; reflexivity|]). apply Forall_nil. Qed.

Lemma remove_byte_app c a b : remove_byte c (a ++ b) = remove_byte c a ++ remove_byte c b.
Proof. unfold remove_byte. apply filter_app. Qed.
Lemma layout_strip ts s : layout ts s -> ~ In TAB (remove_byte SP s) ->
  remove_byte SP s = concat (map text ts).
Proof.
  induction 1 as [s Hb|b t ts s Hb Ht Hl IH Hm]; intros Htab.
  - cbn. destruct (remove_byte SP s) as [|c r] eqn:E; [reflexivity|].
    assert (Hc : In c (remove_byte SP s)) by (rewrite E; left; reflexivity).
    apply remove_byte_in in Hc as [H1 H2]. destruct (Hb _ H1) as [->| ->]; [exfalso; apply H2; reflexivity|].
    exfalso. apply Htab. left; reflexivity.
  - rewrite !remove_byte_app in *. cbn [map concat].
    rewrite IH; [|intros H; apply Htab; apply in_or_app; right; apply in_or_app; right; exact H].
    assert (E1 : remove_byte SP b = []).
    { destruct (remove_byte SP b) as [|c r] eqn:E; [reflexivity|].
      assert (Hc : In c (remove_byte SP b)) by (rewrite E; left; reflexivity).
      apply remove_byte_in in Hc as [H1 H2].
      destruct (Hb _ H1) as [->| ->]; [exfalso; apply H2; reflexivity|].
      exfalso. apply Htab. left; reflexivity. }
    rewrite E1. cbn [app]. f_equal. apply remove_byte_no.
    destruct t; cbn; try (intros Hi; repeat destruct Hi as [Hi|Hi]; discriminate || contradiction).
    intros Hi. destruct Ht as [_ Ht]. apply Ht in Hi. cbn in Hi. lia.
Qed.

(** A well-formed text that takes the fast path has the tokens of the formula. *)
Lemma commons_same_tokens s e k f : wf_text s e -> remove_byte SP s = k -> In (k, f) commons ->
  lex s = lex k.
Proof.
  intros (ts & Hl & Hg) Hk Hin.
  assert (Htab : ~ In TAB k).
  { assert (F : Forall (fun kf => contains_byte TAB (fst kf) = false) commons).
    { unfold commons. repeat (apply Forall_cons; [reflexivity|]). apply Forall_nil. }
    rewrite Forall_forall in F. apply contains_byte_false. apply (F _ Hin). }
  rewrite <- Hk in Htab. pose proof (layout_strip _ _ Hl Htab) as E. rewrite Hk in E.
  destruct (gram_adj _ _ _ Hg) as (A & _ & _).
  assert (C : In ts (cuts (length k) None k)).
  { pattern k at 2. rewrite E. apply cuts_in; auto.
    - eapply layout_tok_ok, Hl.
    - destruct ts; reflexivity.
    - rewrite E. apply le_n. }
  pose proof commons_cuts as F. rewrite Forall_forall in F. specialize (F _ Hin). cbn [fst] in F.
  rewrite F in C. destruct C as [C|[]]. rewrite (layout_lex _ _ Hl). symmetry; exact C.
Qed.

(** for a well-formed text in any layout both paths agree *)
Theorem fast_path_agrees s e n : wf_text s e -> eval s n = recovered (eval_general s n).
Proof.
  intros Hw. unfold eval. destruct (assoc_bytes (remove_byte SP s) commons) as [f|] eqn:E; [|reflexivity].
  apply assoc_bytes_in in E. pose proof (commons_same_tokens _ _ _ _ Hw eq_refl E) as T.
  pose proof (commons_general _ _ n E) as G. f_equal. rewrite <- G. unfold eval_general. rewrite T. reflexivity.
Qed.

(** C01 *)
Theorem eval_wf s e n : wf_text s e -> int64 n ->
  (forall v, eval s n = EvOk v <-> val n e v) /\ (eval s n = EvErr <-> faults n e).
Proof.
  intros Hw Hn. pose proof (wf_text_parse _ _ Hw) as P.
  rewrite (fast_path_agrees _ _ n Hw). pose proof (wf_text_lits _ _ Hw) as L.
  destruct (eval_general_parsed _ _ _ n P Hn) as [(v & H1 & H2 & ->)|[H1 ->]]; cbn [recovered].
  - split.
    + intros u. split; [intros [= <-]; exact H1|]. intros H. rewrite (val_fun _ _ _ _ H1 H). reflexivity.
    + split; [discriminate|]. intros H. destruct (val_not_faults n e v Hn L H1 H).
  - split; [|tauto]. intros u. split; [discriminate|]. intros H. destruct (val_not_faults n e u Hn L H H1).
Qed.

Lemma continues_iff rest : (lt_head 1 rest /\ noerr rest) <->
  match rest with t :: _ => t <> KErr /\ ~ continues t | [] => True end.
Proof.
  destruct rest as [|t r]; [cbn; tauto|]. unfold continues. split.
  - intros [H1 H2]. split; [intros ->; exact H2|].
    intros [->|[[o H]|(o & k & H)]]; cbn in *; try lia; try tauto.
    + inversion H; subst; cbn in H1; lia.
    + inversion H; subst; cbn in H1; lia.
  - intros [N H]. split.
    + destruct t; try exact I; try (cbn; lia);
        first [exfalso; apply H; left; reflexivity
              |exfalso; apply H; right; left; eexists; constructor
              |exfalso; apply H; right; right; do 2 eexists; constructor].
    + destruct t; try exact I. apply N; reflexivity.
Qed.
Theorem parse_iff_accepts s e :
  (exists rest, parse_start (lex s) = POk e rest) <-> accepts s e.
Proof.
  split.
  - intros [rest H]. apply parse_sound in H as (w & E & Hg & H). apply continues_iff in H.
    destruct (lex_munch _ _ _ E (gram_no_err _ _ _ Hg)) as (r & Hm & Er).
    exists w, r. split; [exact Hm|]. split; [exact Hg|]. destruct rest as [|t rest].
    + left. apply lex_nil_blank, Er.
    + right. destruct H as [H1 H2].
      destruct (lex_munch r [t] rest Er) as (r' & Hm' & _); [intros [E0|[]]; congruence|]. eauto.
  - intros (w & r & Hm & Hg & H). exists (lex r). rewrite (munch_lex _ _ _ Hm).
    assert (C : lt_head 1 (lex r) /\ noerr (lex r)).
    { apply continues_iff. destruct H as [H|(t & r' & H & N)].
      - rewrite <- (app_nil_r r), lex_blank by exact H. exact I.
      - rewrite (munch_lex _ _ _ H). cbn [app]. split; [|exact N].
        inversion H; subst. intros ->. assumption. }
    apply parse_complete; tauto.
Qed.
Theorem eval_accepted s n v : int64 n -> eval s n = EvOk v ->
  (exists f, In (remove_byte SP s, f) commons /\ v = f n)
  \/ (exists e, accepts s e /\ val n e v).
Proof.
  intros Hn. unfold eval. destruct (assoc_bytes (remove_byte SP s) commons) as [f|] eqn:E.
  - intros H. injection H as <-. left. exists f. split; [exact (assoc_bytes_in _ _ _ E)|reflexivity].
  - intros H. right. destruct (parse_start (lex s)) as [e rest| |] eqn:P.
    + exists e. split; [apply parse_iff_accepts; exists rest; exact P|].
      destruct (eval_general_parsed _ _ _ n P Hn) as [(u & H1 & H2 & G)|[H1 G]]; rewrite G in H; cbn in H.
      * injection H as <-. exact H1.
      * discriminate.
    + unfold eval_general in H. rewrite P in H. discriminate.
    + unfold eval_general in H. rewrite P in H. discriminate.
Qed.
Theorem eval_rejects s n : int64 n -> assoc_bytes (remove_byte SP s) commons = None ->
  (forall e, ~ accepts s e) -> eval s n = EvErr.
Proof.
  intros Hn E H. unfold eval. rewrite E. unfold eval_general.
  destruct (parse_start (lex s)) as [e rest| |] eqn:P; [|reflexivity|destruct (parse_start_fuel _ P)].
  destruct (H e). apply parse_iff_accepts. exists rest. exact P.
Qed.
