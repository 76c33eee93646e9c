(** Property C57 for the errors [plurals.Eval] returns. *)
From Coq Require Import Lia.
From Verif Require Import GoStr GoStrFacts GoFmt PluralModel PluralSpec PluralLexFacts PluralParseFacts PluralEvalFacts
  PluralTextFacts AtnModel AtnSpec GenModel GenSpec GenFacts PropertiesGen ErrModel ErrSpec ErrFacts PropertiesErr
  EvalErrModel EvalErrSpec EvalErrFacts.
Local Open Scope Z_scope.

(** the value and the error are those of the model of [Eval] the other theorems
    speak about *)
Theorem C57_model : forall A (print : spec -> arg (val A) -> bytes) as_int extra antlr next thrown s n reports t,
  recognised s reports t ->
  (forall v, returned print as_int extra antlr next thrown s n reports t = (v, None) <-> eval s n = EvOk v) /\
  ((exists v e, returned print as_int extra antlr next thrown s n reports t = (v, Some e)) <-> eval s n = EvErr).
Proof.
  intros A print as_int extra antlr next thrown s n reports t R. rewrite <- gen_eval_is. unfold returned, gen_eval.
  destruct (assoc_bytes (remove_byte SP s) commons) as [f|]; cbn [recovered].
  { split; [intros v; split; intros H; injection H as <-; reflexivity|].
    split; [intros (v & e & H); discriminate|discriminate]. }
  unfold recognised in R. destruct (gen_parse s) as [t' rest| |]; [| |contradiction].
  - destruct R as [-> ->]. destruct (gwalk n t' ([], 0)) as [[st w]|]; cbn [recovered listen].
    + split; [intros v; split; intros H; injection H as <-; reflexivity|].
      split; [intros (v & e & H); discriminate|discriminate].
    + split; [intros v; split; discriminate|]. split; [reflexivity|]. intros _. eexists _, _. reflexivity.
  - destruct R as [R _]. destruct (C57_antlr A print as_int extra antlr next reports R) as (e & L & _). cbn [recovered].
    split; [intros v; split; [|discriminate]|split; [reflexivity|intros _]].
    + destruct (gwalk n t ([], 0)) as [[st w]|]; [rewrite L|]; discriminate.
    + destruct (gwalk n t ([], 0)) as [[st w]|]; [rewrite L|]; eexists _, _; reflexivity.
Qed.
Print Assumptions C57_model.

(** exactly when the error has ErrAntlr as a cause: the text is not known by heart,
    does not begin with an expression, and walking what was understood of it does
    not end in a panic *)
Theorem C57_exactly : forall A (print : spec -> arg (val A) -> bytes) as_int extra antlr next thrown s n reports t,
  (e_ident antlr < next)%nat -> recognised s reports t ->
  (Is true (snd (returned print as_int extra antlr next thrown s n reports t)) (Some antlr) = true <->
   ~ known s /\ (forall e, ~ accepts s e) /\ gwalk n t ([], 0) <> None).
Proof.
  intros A print as_int extra antlr next thrown s n reports t F R. rewrite known_iff. unfold returned.
  destruct (assoc_bytes (remove_byte SP s) commons) as [f|].
  { cbn [snd Is]. split; [discriminate|]. intros (K & _). destruct K. exists f. reflexivity. }
  destruct (gwalk n t ([], 0)) as [[st v]|] eqn:W; cbn [snd].
  - unfold recognised in R. destruct (C90_errors s) as [X _]. destruct (gen_parse s) as [t' rest| |] eqn:G; [| |contradiction].
    + destruct R as [-> ->]. cbn [listen Is]. split; [discriminate|]. intros (_ & N & _).
      pose proof (proj2 X N). discriminate.
    + destruct R as [R _]. destruct (C57_antlr A print as_int extra antlr next reports R) as (e & -> & L).
      split; [intros _|auto]. split; [intros [f H]; discriminate|]. split; [apply X; reflexivity|discriminate].
  - rewrite (C57_panic A print as_int extra antlr) by lia. split; [discriminate|]. intros (_ & _ & H). congruence.
Qed.
Print Assumptions C57_exactly.

(** a text that opens with an expression which cannot be computed, and is no
    expression as a whole: the panic hides what was reported *)
Theorem C57_hidden : forall A (print : spec -> arg (val A) -> bytes) as_int extra antlr next thrown s n reports t e,
  (e_ident antlr < next)%nat -> int64 n -> recognised s reports t ->
  ~ known s -> (forall e', ~ accepts s e') -> opens_with e s -> faults n e ->
  reports <> [] /\
  exists x, returned print as_int extra antlr next thrown s n reports t = (0, Some x) /\
    Is true (Some x) (Some antlr) = false.
Proof.
  intros A print as_int extra antlr next thrown s n reports t e F Hn R K N O Q.
  pose proof R as R'. unfold recognised in R'. destruct (C90_errors s) as [X _].
  rewrite (proj2 X N) in R'. destruct R' as [NE [rest C]]. split; [exact NE|].
  destruct (rejected_front e s O N) as [y Y]. rewrite Y, <- app_assoc in C.
  unfold returned. destruct (assoc_bytes (remove_byte SP s) commons) as [f|] eqn:E.
  { destruct K. apply known_iff. exists f. exact E. }
  rewrite (front_panics n e t _ Hn (opens_lits e s O) Q C). eexists. split; [reflexivity|].
  apply C57_panic. lia.
Qed.
Print Assumptions C57_hidden.

(** so the claim is false as stated: the text (1/0 *)
Theorem C57_hidden_refuted : exists s n,
  (forall e, ~ accepts s e) /\ (exists reports t, recognised s reports t) /\
  forall A (print : spec -> arg (val A) -> bytes) as_int extra antlr next thrown reports t,
    (e_ident antlr < next)%nat -> recognised s reports t ->
    reports <> [] /\ Is true (snd (returned print as_int extra antlr next thrown s n reports t)) (Some antlr) = false.
Proof.
  exists (B "(1/0"), 7.
  assert (N : forall e, ~ accepts (B "(1/0") e) by (apply (proj1 (C90_errors _)); rewrite gen_parse_is; vm_compute; reflexivity).
  assert (P : parse_start (lex (B "1/0")) = POk (EBin BDiv (EInt (B "1")) (EInt (B "0"))) []) by (vm_compute; reflexivity).
  assert (O : opens_with (EBin BDiv (EInt (B "1")) (EInt (B "0"))) (B "(1/0")).
  { apply (O_open _ (B "1/0")), O_here. apply parse_iff_accepts. exists []. exact P. }
  split; [exact N|]. split.
  - exists [B "x"], (StartContext [tree_of (EBin BDiv (EInt (B "1")) (EInt (B "0")))]).
    unfold recognised. rewrite (proj2 (proj1 (C90_errors _)) N). split; [discriminate|].
    eexists. vm_compute. reflexivity.
  - intros A print as_int extra antlr next thrown reports t F R.
    assert (H7 : int64 7) by (vm_compute; split; [intros H; discriminate|reflexivity]).
    assert (K : ~ known (B "(1/0")) by (rewrite known_iff; intros [f H]; vm_compute in H; discriminate).
    assert (Q : faults 7 (EBin BDiv (EInt (B "1")) (EInt (B "0")))).
    { apply F_div; [left; reflexivity|].
      destruct (walk_spec 7 (EInt (B "0")) H7) as [(v & V & _ & W)|[_ W]].
      - split; [discriminate|]. intros c [<- | []]. vm_compute. split; intros H; discriminate.
      - specialize (W []). vm_compute in W. injection W as <-. exact V.
      - specialize (W []). vm_compute in W. discriminate. }
    destruct (C57_hidden A print as_int extra antlr next thrown _ 7 reports t _ F H7 R K N O Q) as (NE & x & -> & H).
    split; [exact NE|exact H].
Qed.
Print Assumptions C57_hidden_refuted.
(** the other case: nothing computed before the error faults *)
Example C57_seen_case : exists reports t, recognised (B "n+1 ? 2") reports t /\
  Is true (snd (returned ex_print ex_as_int (fun _ => []) cause 8 VNil (B "n+1 ? 2") 5 reports t)) (Some cause) = true.
Proof.
  exists [B "line 1:7"],
    (StartContext [ExpContext None (Some (23, B "?")) None
       [tree_of (EBin BAdd EVar (EInt (B "1"))); Leaf (23, B "?"); tree_of (EInt (B "2"))]]).
  split.
  - unfold recognised. replace (gen_parse (B "n+1 ? 2")) with (@GErr tree) by (rewrite gen_parse_is; vm_compute; reflexivity).
    split; [discriminate|]. exists [ExitExp None (Some (23, B "?")) None; ExitStart]. vm_compute. reflexivity.
  - vm_compute. reflexivity.
Qed.
(** also behind the question mark and the colon of a conditional: whatever the
    recogniser does after the error, n?1/0: and n?1:1/0+ end in a panic *)
Example C57_middle_case : forall s reports t, s = B "n?1/0:" \/ s = B "n?1:1/0+" -> recognised s reports t ->
  reports <> [] /\ Is true (snd (returned ex_print ex_as_int (fun _ => []) cause 8 VNil s 5 reports t)) (Some cause) = false.
Proof.
  intros s reports t Hs R.
  assert (Q : gen_parse s = GErr /\ assoc_bytes (remove_byte SP s) commons = None /\ fire_all 5 (finished s) ([], 0) = None).
  { rewrite gen_parse_is. destruct Hs as [-> | ->]; vm_compute; repeat split. }
  destruct Q as (G & K & P). unfold recognised in R. rewrite G in R. destruct R as [NE [rest C]]. split; [exact NE|].
  unfold returned. rewrite K, gwalk_calls, C, fire_app, P. cbn [obind].
  apply (C57_panic nat ex_print ex_as_int (fun _ => []) cause (8 + 2 * length reports) VNil true). cbn [cause e_ident]. lia.
Qed.
