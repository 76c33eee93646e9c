(** Theorems about the tables of the generated lexer and parser: C88 and C89. *)
From Coq Require Import Lia.
From Verif Require Import GoStr PluralModel PluralSpec PluralLexFacts PluralParseFacts AtnModel AtnSpec
  AtnFacts AtnLexFacts AtnParseFacts PropertiesPlural.
Local Open Scope Z_scope.

(** ** C88: the table of the lexer splits a text into tokens as documented *)
Theorem C88_table_is_the_lexer : forall s out,
  table_lex s = Some out <-> exists ts, layout ts s /\ out = map token ts.
Proof. exact table_lex_layout. Qed.
Print Assumptions C88_table_is_the_lexer.
(** the hand-written lexer of the model says the same as the table, also of the
    texts that have no tokens at some place *)
Theorem C88_model_is_the_table : forall s,
  (In KErr (lex s) <-> table_lex s = None) /\
  (~ In KErr (lex s) -> table_lex s = Some (map token (lex s))).
Proof.
  intros s. rewrite table_lex_is. unfold result.
  destruct (existsb is_err (lex s)) eqn:E.
  - assert (N : ~ ~ In KErr (lex s)) by (intros N; apply no_err in N; congruence).
    assert (Y : In KErr (lex s)).
    { clear N. induction (lex s) as [|t ts IH]; [discriminate|]. cbn [existsb] in E.
      apply orb_true_iff in E as [E | E]; [left; destruct t; try discriminate; reflexivity|right; apply IH, E]. }
    split; [split; auto|]. intros X. contradiction.
  - pose proof (proj1 (no_err _) E) as N. split; [split; [contradiction|discriminate]|reflexivity].
Qed.
Print Assumptions C88_model_is_the_table.
(** the numbers of the tokens are their places in the list of literal names *)
Theorem C88_names : forall t, t <> KErr -> (forall ds, t <> KInt ds) ->
  nth_error literal_names (Z.to_nat (token_type t)) = Some (B "'" ++ text t ++ B "'").
Proof.
  intros t H1 H2. destruct t; try congruence; try (vm_compute; reflexivity).
Qed.
Print Assumptions C88_names.
Example C88_case :
  table_lex (B "n>= 12") = Some [(27, [110]); (14, [62; 61]); (28, [49; 50])] /\
  table_lex (B "n = 1") = None /\ table_lex (byte_of 195 :: byte_of 169 :: B "n") = None.
Proof. repeat split; vm_compute; reflexivity. Qed.

(** ** C89: the table of the parser describes the documented grammar *)
Theorem C89_table_is_the_grammar : exists A, decode parser_table = Some A /\
  forall ts, describes A 0 0 (map token_type ts) <-> exists e, gram 1 ts e.
Proof. exists PA. split; [exact PA_ok|exact table_is_grammar]. Qed.
Print Assumptions C89_table_is_the_grammar.
(** the hand-written parser of the model reads as a whole exactly what the table
    describes *)
Theorem C89_model_is_the_table : exists A, decode parser_table = Some A /\
  forall ts, (exists e, parse_start ts = POk e []) <-> describes A 0 0 (map token_type ts).
Proof.
  exists PA. split; [exact PA_ok|]. intros ts. rewrite table_is_grammar.
  split; intros [e H]; exists e; apply C02_parser_is_the_grammar; exact H.
Qed.
Print Assumptions C89_model_is_the_table.
(** both tables together: the texts they take as a whole are the well-formed
    plural expressions *)
Theorem C89_texts : exists A, decode parser_table = Some A /\
  forall s, (exists out, table_lex s = Some out /\ describes A 0 0 (map fst out)) <->
            (exists e, wf_text s e).
Proof.
  exists PA. split; [exact PA_ok|]. intros s. split.
  - intros (out & E & D). apply table_lex_layout in E as (ts & L & ->).
    rewrite map_map in D. cbn [token fst] in D. apply table_is_grammar in D as [e G].
    exists e, ts. split; assumption.
  - intros (e & ts & L & G). exists (map token ts). split; [apply table_lex_layout; eauto|].
    rewrite map_map. cbn [token fst]. apply table_is_grammar. eauto.
Qed.
Print Assumptions C89_texts.
(** at every decision of the table, whatever the precedence, the next token fits
    at most one way on *)
Theorem C89_one_token_decides : exists A, decode parser_table = Some A /\
  forall p d k a b, In d (a_decisions A) -> In a (out A d) -> In b (out A d) ->
    can_start A p (e_trg a) k -> can_start A p (e_trg b) k -> a = b.
Proof. exists PA. split; [exact PA_ok|exact one_token_decides]. Qed.
Print Assumptions C89_one_token_decides.
(** an expression can begin with exactly the tokens that open an operand, and the
    loop over operators (decision 2) can go on with exactly the operators that
    bind at least as tight as the place demands *)
Theorem C89_next_token : exists A loop start, decode parser_table = Some A /\
  nth_error (a_decisions A) 2 = Some loop /\ nth_error (a_rules A) 1 = Some start /\
  forall p t, t <> KErr ->
    (can_start A p (fst start) (token_type t) <-> opens t) /\
    (can_start A p loop (token_type t) <-> goes_on p t).
Proof.
  exists PA, 59, (2, 0). split; [exact PA_ok|]. split; [reflexivity|]. split; [reflexivity|].
  intros p t H. split; [apply first_token, H|apply loop_token, H].
Qed.
Print Assumptions C89_next_token.
Example C89_case :
  let ts := [KN; KMul; KMinus; KN; KInc; KQ; KInt (B "1"); KColon; KN] in
  (exists A, decode parser_table = Some A /\ describes A 0 0 (map token_type ts)) /\
  (exists A, decode parser_table = Some A /\ ~ describes A 0 0 (map token_type [KN; KN])).
Proof.
  cbv zeta. split; exists PA; (split; [exact PA_ok|]).
  - apply table_is_grammar. eexists. apply C02_parser_is_the_grammar. vm_compute. reflexivity.
  - intros H. apply table_is_grammar in H as [e G]. apply C02_parser_is_the_grammar in G. vm_compute in G. discriminate.
Qed.
