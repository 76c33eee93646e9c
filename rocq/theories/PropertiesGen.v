(** Theorems about the generated parser and the walk over its trees: C90. *)
From Coq Require Import Lia.
From Verif Require Import GoStr PluralModel PluralSpec PluralLexFacts PluralParseFacts PluralEvalFacts PluralTextFacts
  AtnModel AtnSpec GenModel GenSpec GenFacts.
Local Open Scope Z_scope.

(** ** C90: the generated parser builds the tree of the expression, and walking it
    gives the value of the expression *)
(** the trees it builds are exactly those of the expressions the text begins with *)
Theorem C90_trees : forall s t,
  (exists rest, gen_parse s = GOk t rest) <->
  (exists e, accepts s e /\ t = StartContext [tree_of e]).
Proof.
  intros s t. rewrite gen_parse_is. split.
  - intros [rest H]. destruct (parse_start (lex s)) as [e r| |] eqn:E; try discriminate.
    injection H as <- _. exists e. split; [|reflexivity]. apply parse_iff_accepts. exists r. exact E.
  - intros (e & A & ->). apply parse_iff_accepts in A as [r ->]. eexists. reflexivity.
Qed.
Print Assumptions C90_trees.
(** the leaves of the tree are the tokens of the text, from its beginning on *)
Theorem C90_leaves : forall s t rest, gen_parse s = GOk t rest ->
  exists ts r, munch ts s r /\ get_text t = flat_map text ts.
Proof.
  intros s t rest H.
  destruct (proj1 (C90_trees s t) (ex_intro _ rest H)) as (e & (ts & r & M & G & _) & ->).
  exists ts, r. split; [exact M|]. cbn [get_text flat_map]. rewrite app_nil_r, get_text_is.
  rewrite (gram_yield _ _ _ G). reflexivity.
Qed.
Print Assumptions C90_leaves.
(** the parser reports an error for every other text, and always comes to an end *)
Theorem C90_errors : forall s, (gen_parse s = GErr <-> forall e, ~ accepts s e) /\ gen_parse s <> GFuel.
Proof.
  intros s. rewrite gen_parse_is. destruct (parse_start (lex s)) as [e r| |] eqn:E.
  - split; [|discriminate]. split; [discriminate|]. intros H. destruct (H e).
    apply parse_iff_accepts. exists r. exact E.
  - split; [|discriminate]. split; [|reflexivity]. intros _ e A. apply parse_iff_accepts in A as [r A].
    congruence.
  - destruct (parse_start_fuel _ E).
Qed.
Print Assumptions C90_errors.
(** walking the tree of an expression leaves its value, or ends in a panic exactly
    if the expression faults *)
Theorem C90_walk : forall n e, int64 n -> lits_ok e ->
  (exists v, val n e v /\ forall v0, gwalk n (StartContext [tree_of e]) ([], v0) = Some ([], v)) \/
  (faults n e /\ forall v0, gwalk n (StartContext [tree_of e]) ([], v0) = None).
Proof.
  intros n e Hn L.
  assert (W : forall v0, gwalk n (StartContext [tree_of e]) ([], v0) =
    match walk n e [] with Some st => let (v, s) := pop st in Some (s, v) | None => None end).
  { intros v0. cbn [gwalk]. pose proof (gwalk_is n e [] v0 L) as W.
    match goal with |- context [gwalk n (tree_of e) ?x] => change x with (([] : stack), v0) end. rewrite W.
    destruct (walk n e []); reflexivity. }
  destruct (walk_spec n e Hn L) as [(v & V & _ & K)|[F K]].
  - left. exists v. split; [exact V|]. intros v0. rewrite W, K. reflexivity.
  - right. split; [exact F|]. intros v0. rewrite W, K. reflexivity.
Qed.
Print Assumptions C90_walk.
(** with tables, generated parser and walk, [Eval] says of a text that begins with
    an expression what the expression says *)
Theorem C90_value : forall s e n, int64 n -> accepts s e ->
  assoc_bytes (remove_byte SP s) commons = None ->
  (forall v, gen_eval s n = EvOk v <-> val n e v) /\ (gen_eval s n = EvErr <-> faults n e).
Proof.
  intros s e n Hn A C. rewrite gen_eval_is. unfold eval. rewrite C.
  pose proof (accepts_lits s e A) as L. apply parse_iff_accepts in A as [r P].
  destruct (eval_general_parsed _ _ _ n P Hn) as [(u & H1 & H2 & G)|[H1 G]]; rewrite G; cbn [recovered].
  - split; [intros v; split|split].
    + intros X. injection X as <-. exact H1.
    + intros V. f_equal. exact (val_fun _ _ _ _ H1 V).
    + discriminate.
    + intros F. destruct (val_not_faults _ _ _ Hn L H1 F).
  - split; [intros v; split|split].
    + discriminate.
    + intros V. exfalso. exact (val_not_faults _ _ _ Hn L V H1).
    + intros _. exact H1.
    + reflexivity.
Qed.
Print Assumptions C90_value.
(** the parser and the evaluator written by hand, about which the other theorems
    speak, agree with the tables and the generated code on every text *)
Theorem C90_model : forall s n, gen_eval s n = eval s n.
Proof. exact gen_eval_is. Qed.
Print Assumptions C90_model.
Example C90_case :
  gen_parse (B "-n*2 ? n") = GErr /\
  gen_parse (B "-n*2 n") =
    GOk (StartContext [ExpContext None (Some (7, B "*")) None
           [ExpContext (Some (4, B "-")) None None
              [Leaf (4, B "-"); ExpContext None None None [PrimaryContext (27, B "n") [Leaf (27, B "n")]]];
            Leaf (7, B "*");
            ExpContext None None None [PrimaryContext (28, B "2") [Leaf (28, B "2")]]]])
        [Some (27, B "n")] /\
  gen_eval (B "-n*2 n") 4 = EvOk (-8) /\ gen_eval (B "2/n") 0 = EvErr.
Proof. repeat split; vm_compute; reflexivity. Qed.
