(** Theorems about the context of [plurals.Eval]: C91. *)
From Coq Require Import Lia.
From Verif Require Import GoStr PluralModel PluralSpec PluralLexFacts PluralParseFacts PluralEvalFacts PluralTextFacts
  AtnModel AtnSpec GenModel GenSpec GenFacts TraceModel TraceSpec TraceFacts.
Local Open Scope Z_scope.

Lemma say_start : forall c n e st o,
  say_walk c n (StartContext [tree_of e]) st o =
  match say_walk c n (tree_of e) st o with
  | (o', Some a) => let (v, s) := pop (fst a) in (o', Some (s, v))
  | (o', None) => (o', None)
  end.
Proof.
  intros c n e st o. cbn [say_walk]. unfold andthen, done.
  destruct (say_walk c n (tree_of e) st o) as [o' [a|]]; [|reflexivity]. destruct (pop (fst a)). reflexivity.
Qed.
Lemma parses : forall s e, accepts s e -> exists rest, gen_parse s = GOk (StartContext [tree_of e]) rest.
Proof.
  intros s e A. rewrite gen_parse_is. apply parse_iff_accepts in A as [r ->]. eexists. reflexivity.
Qed.

(** ** C91: a debugging context adds a trace of the calculation and changes nothing
    else; a nil context is answered with an error *)
(** the values on the way to the value of the expression, line by line *)
Theorem C91_trace : forall s e n v ls, int64 n -> accepts s e ->
  assoc_bytes (remove_byte SP s) commons = None -> told n [] e v ls ->
  say_eval Debug s n = (lines ls, EvOk v).
Proof.
  intros s e n v ls Hn A C T. unfold say_eval. rewrite C.
  destruct (parses s e A) as [rest ->]. rewrite say_start.
  pose proof (told_said n [] e v ls Hn T (accepts_lits s e A) 0 []) as W.
  match goal with |- context [say_walk Debug n (tree_of e) ?x []] => change x with (rev ([] : list Z), 0) end.
  rewrite W. reflexivity.
Qed.
Print Assumptions C91_trace.
(** the lines before the operator that cannot be applied, or the number that is too
    large; then the error *)
Theorem C91_fault : forall s e n ls, int64 n -> accepts s e ->
  assoc_bytes (remove_byte SP s) commons = None -> stops n [] e ls ->
  say_eval Debug s n = (lines ls, EvErr).
Proof.
  intros s e n ls Hn A C T. unfold say_eval. rewrite C.
  destruct (parses s e A) as [rest ->]. rewrite say_start.
  pose proof (stops_said n [] e ls Hn T (accepts_lits s e A) 0 []) as W.
  match goal with |- context [say_walk Debug n (tree_of e) ?x []] => change x with (rev ([] : list Z), 0) end.
  rewrite W. reflexivity.
Qed.
Print Assumptions C91_fault.
(** there is exactly one such account of every expression *)
Theorem C91_every : forall s e n, int64 n -> accepts s e ->
  (exists v ls, told n [] e v ls /\ val n e v /\ forall v' ls', told n [] e v' ls' -> v' = v /\ ls' = ls) \/
  (exists ls, stops n [] e ls /\ faults n e).
Proof.
  intros s e n Hn A. pose proof (accepts_lits s e A) as L. destruct (either n e Hn L) as [[v V]|F].
  - left. destruct (val_told n e v L V []) as [ls T]. exists v, ls. split; [exact T|]. split; [exact V|].
    intros v' ls' T'. destruct (told_fun _ _ _ _ _ T' _ _ T). split; assumption.
  - right. destruct (faults_stops n e Hn L F []) as [ls T]. exists ls. split; assumption.
Qed.
Print Assumptions C91_every.
(** the answer is the one without a trace, for every text; without the key nothing is
    printed *)
Theorem C91_same : forall s n,
  snd (say_eval Debug s n) = eval s n /\ say_eval Plain s n = ([], eval s n).
Proof.
  intros s n.
  assert (E : forall c, c <> Nil -> snd (say_eval c s n) = gen_eval s n).
  { intros c Hc. unfold say_eval, gen_eval.
    destruct (assoc_bytes (remove_byte SP s) commons) as [g|]; [reflexivity|].
    destruct (gen_parse s) as [t rest| |]; [|reflexivity|reflexivity].
    pose proof (same_walk c n Hc t (([] : stack), 0) []) as W.
    match goal with |- context [say_walk c n t ?x []] => change x with (([] : stack), 0) end.
    match goal with |- context [gwalk n t ?x] => change x with (([] : stack), 0) end.
    destruct (say_walk c n t (([] : stack), 0) []) as [o [[st v]|]]; cbn [snd] in W; rewrite <- W; reflexivity. }
  rewrite <- gen_eval_is. split; [apply E; discriminate|].
  rewrite <- (E Plain ltac:(discriminate)).
  assert (M : fst (say_eval Plain s n) = []).
  { unfold say_eval. destruct (assoc_bytes (remove_byte SP s) commons); [reflexivity|].
    destruct (gen_parse s) as [t rest| |]; [|reflexivity|reflexivity].
    pose proof (mute_walk Plain n ltac:(discriminate) t (([] : stack), 0) []) as W.
    match goal with |- context [say_walk Plain n t ?x []] => change x with (([] : stack), 0) end.
    destruct (say_walk Plain n t (([] : stack), 0) []) as [o [[st v]|]]; exact W. }
  destruct (say_eval Plain s n) as [o x]. cbn [fst snd] in *. subst o. reflexivity.
Qed.
Print Assumptions C91_same.
(** a nil context: the first value calculated ends in a panic, which is answered with
    an error, and nothing is printed; unless the formula is one of the built-in ones *)
Theorem C91_nil : forall s n,
  say_eval Nil s n =
  ([], match assoc_bytes (remove_byte SP s) commons with Some f => EvOk (f n) | None => EvErr end).
Proof.
  intros s n. unfold say_eval. destruct (assoc_bytes (remove_byte SP s) commons) as [f|]; [reflexivity|].
  destruct (gen_parse s) as [t rest| |] eqn:G; [|reflexivity|].
  - rewrite gen_parse_is in G. destruct (parse_start (lex s)) as [e r| |]; try discriminate.
    injection G as <- _. rewrite say_start.
    pose proof (nil_walk n e (([] : stack), 0) []) as W. pose proof (mute_walk Nil n ltac:(discriminate) (tree_of e) (([] : stack), 0) []) as M.
    match goal with |- context [say_walk Nil n (tree_of e) ?x []] => change x with (([] : stack), 0) end.
    destruct (say_walk Nil n (tree_of e) (([] : stack), 0) []) as [o y]. cbn [fst snd] in *. subst o y. reflexivity.
  - rewrite gen_parse_is in G. destruct (parse_start (lex s)) as [e r| |] eqn:E; try discriminate.
    destruct (parse_start_fuel _ E).
Qed.
Print Assumptions C91_nil.
(** the built-in formulas are never traced, whatever the context *)
Theorem C91_builtin : forall c s n f, assoc_bytes (remove_byte SP s) commons = Some f ->
  say_eval c s n = ([], eval s n) /\ eval s n = EvOk (f n).
Proof. intros c s n f H. unfold say_eval, eval. rewrite H. split; reflexivity. Qed.
Print Assumptions C91_builtin.
Example C91_case :
  say_eval Debug (B "n == 1 ? 5 : -(n)") 3 =
    (B "primary: n stack=[3]" ++ [NL] ++ B "primary: 1 stack=[3 1]" ++ [NL] ++
     B "bop   : == stack=[3 1]" ++ [NL] ++ B "bop done stack=[0]" ++ [NL] ++
     B "primary: 5 stack=[0 5]" ++ [NL] ++
     B "primary: n stack=[0 5 3]" ++ [NL] ++ B "primary: (exp) stack=[0 5 3]" ++ [NL] ++
     B "primary: (n) stack=[0 5 3]" ++ [NL] ++ B "prefix: - stack=[0 5 3]" ++ [NL] ++
     B "bop   : ? stack=[0 5 -3]" ++ [NL] ++ B "[0 5 -3]" ++ [NL] ++
     B "bop done stack=[-3]" ++ [NL], EvOk (-3)) /\
  say_eval Debug (B "7%n") 0 =
    (B "primary: 7 stack=[7]" ++ [NL] ++ B "primary: n stack=[7 0]" ++ [NL] ++
     B "bop   : % stack=[7 0]" ++ [NL], EvErr) /\
  say_eval Debug (B "n != 1") 3 = ([], EvOk 1) /\
  say_eval Nil (B "n + 1") 3 = ([], EvErr) /\ say_eval Nil (B "n != 1") 3 = ([], EvOk 1) /\
  (exists ls, told 3 [] (EBin BAdd EVar (EInt (B "1"))) 4 ls) /\
  stops 0 [] (EBin BMod (EInt (B "7")) EVar)
    [B "primary: 7 stack=[7]"; B "primary: n stack=[7 0]"; B "bop   : % stack=[7 0]"].
Proof.
  split; [vm_compute; reflexivity|]. split; [vm_compute; reflexivity|]. split; [vm_compute; reflexivity|].
  split; [vm_compute; reflexivity|]. split; [vm_compute; reflexivity|]. split.
  - eexists. eapply T_bin; [apply T_var|apply T_int|].
    + vm_compute. split; congruence.
    + apply BV_add. split; [vm_compute; split; congruence|]. exists 0. reflexivity.
  - apply (S_bin 0 [] BMod (EInt (B "7")) EVar 7 0 [B "primary: 7 stack=[7]"] [B "primary: n stack=[7 0]"]).
    + apply (T_int 0 [] (B "7")). vm_compute. split; congruence.
    + apply (T_var 0 [7]).
    + left. split; [right|]; reflexivity.
Qed.
