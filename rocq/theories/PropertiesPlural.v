(** Properties C01-C06: plural expressions. *)
From Verif Require Import GoStr PluralModel PluralSpec PluralCSpec PluralLexFacts PluralParseFacts
  PluralEvalFacts PluralTextFacts PluralCFacts.
From Coq Require Import Lia.
Local Open Scope Z_scope.

(** ** C01 *)
Theorem C01_eval_value : forall s e n, wf_text s e -> int64 n ->
  (forall v, eval s n = EvOk v <-> val n e v) /\ (eval s n = EvErr <-> faults n e).
Proof. exact eval_wf. Qed.
Print Assumptions C01_eval_value.
(** the operand stack: an expression adds exactly its value, or faults *)
Theorem C01_stack : forall n e, int64 n -> lits_ok e ->
  (exists v, val n e v /\ int64 v /\ forall st, walk n e st = Some (v :: st))
  \/ (faults n e /\ forall st, walk n e st = None).
Proof. exact walk_spec. Qed.
Print Assumptions C01_stack.
Theorem C01_value_unique : forall n e v v', val n e v -> val n e v' -> v = v'.
Proof. exact val_fun. Qed.
Print Assumptions C01_value_unique.
Example C01_case : wf_text (B "n%10 ==1 ? n/2 :	2")
  (ECond (EBin BEq (EBin BMod EVar (EInt (B "10"))) (EInt (B "1")))
         (EBin BDiv EVar (EInt (B "2"))) (EInt (B "2"))) /\ int64 (-11)
  /\ eval (B "n%10 ==1 ? n/2 :	2") 11 = EvOk 5.
Proof.
  split; [|split; [unfold int64; lia|vm_compute; reflexivity]].
  exists (lex (B "n%10 ==1 ? n/2 :	2")). split; [apply lex_layout; [reflexivity|vm_compute; reflexivity]|].
  destruct (parse_sound (lex (B "n%10 ==1 ? n/2 :	2"))
    (ECond (EBin BEq (EBin BMod EVar (EInt (B "10"))) (EInt (B "1")))
         (EBin BDiv EVar (EInt (B "2"))) (EInt (B "2"))) []) as (w & E & G & _); [vm_compute; reflexivity|].
  rewrite app_nil_r in E. rewrite E. exact G.
Qed.
Example C01_case_fault : eval (B "1/n") 0 = EvErr.
Proof. vm_compute. reflexivity. Qed.

(** ** C02 *)
(** a tree written with the parentheses the precedences require, in any layout,
    is read back as that tree; erasing the parentheses gives the tree itself *)
Theorem C02_print_parse : forall e s, layout (yield (parens e)) s ->
  parse_start (lex s) = POk (parens e) [] /\ erase (parens e) = erase e.
Proof. exact (fun e s H => conj (parse_print e s H) (erase_parens e)). Qed.
Print Assumptions C02_print_parse.
Theorem C02_every_tree_has_a_text : forall e, lits_ok e -> exists s, layout (yield e) (SP :: s).
Proof. exact (fun e H => layout_exists _ (yield_tok_ok e H)). Qed.
Print Assumptions C02_every_tree_has_a_text.
(** the parser accepts exactly the grammar, and the grammar is unambiguous *)
Theorem C02_parser_is_the_grammar : forall ts e,
  parse_start ts = POk e [] <-> gram 1 ts e.
Proof.
  exact (fun ts e => conj
    (fun H => match parse_sound ts e [] H with
              | ex_intro _ w (conj E (conj G _)) =>
                  eq_ind w (fun x => gram 1 x e) G ts (eq_sym (eq_trans E (app_nil_r w)))
              end)
    (fun G => eq_ind (ts ++ []) (fun x => parse_start x = POk e [])
                (parse_complete ts e [] G I I) ts (app_nil_r ts))).
Qed.
Print Assumptions C02_parser_is_the_grammar.
Theorem C02_unambiguous : forall w e e', gram 1 w e -> gram 1 w e' -> e = e'.
Proof. exact gram_unambiguous. Qed.
Print Assumptions C02_unambiguous.
Theorem C02_lexer_is_maximal_munch : forall ts s, layout ts s <-> lex s = ts /\ ~ In KErr ts.
Proof. exact lex_iff_layout. Qed.
Print Assumptions C02_lexer_is_maximal_munch.
Example C02_case :
  let e := EBin BSub (EBin BSub (EInt (B "1")) EVar) (EBin BAdd (EInt (B "2")) (EBin BMul EVar EVar)) in
  yield (parens e) = lex (B "1 - n-(2+ n*n)") /\ layout (yield (parens e)) (B "1 - n-(2+ n*n)").
Proof. split; [vm_compute; reflexivity|]. apply lex_layout; vm_compute; reflexivity. Qed.

(** ** C03 *)
Theorem C03_formulas : forall k f n, In (k, f) commons -> eval_general k n = EvOk (f n).
Proof. exact commons_general. Qed.
Print Assumptions C03_formulas.
Theorem C03_fast_path : forall s e n, wf_text s e -> eval s n = recovered (eval_general s n).
Proof. exact fast_path_agrees. Qed.
Print Assumptions C03_fast_path.
(** spaces inside a token defeat this: the text is not in the grammar (the general
    evaluator reads its first [n] or rejects it) but the fast path takes it *)
Theorem C03_any_text_refuted :
  (exists s n, eval s n = EvOk 1 /\ recovered (eval_general s n) = EvOk 2)
  /\ (exists s n, eval s n = EvOk 1 /\ recovered (eval_general s n) = EvErr).
Proof.
  exact (conj (ex_intro _ (B "n ! = 1") (ex_intro _ 2 (conj eq_refl eq_refl)))
    (ex_intro _ (B "n = = 1 ? 0 : n = = 2 ? 1 : 2") (ex_intro _ 2 (conj eq_refl eq_refl)))).
Qed.
Print Assumptions C03_any_text_refuted.
Example C03_case : wf_text (B " n != 1 ") (EBin BNe EVar (EInt (B "1")))
  /\ In (B "n!=1", fun n => gi (negb (n =? 1))) commons.
Proof.
  split; [|right; left; reflexivity]. exists [KN; KNe; KInt (B "1")].
  split; [apply lex_layout; vm_compute; reflexivity|].
  apply C02_parser_is_the_grammar. vm_compute. reflexivity.
Qed.

(** ** C04: false in general, true on a fragment *)
Theorem C04_truth_refuted : exists s e n v, c_text s e /\ cval n e v /\ eval s n <> EvOk v.
Proof.
  exists (B "n ? 1 : 0"), (ECond EVar (EInt (B "1")) (EInt (B "0"))), 2, 1.
  split; [|split; [|vm_compute; discriminate]].
  - exists [KN; KQ; KInt (B "1"); KColon; KInt (B "0")]. split; [apply lex_layout; vm_compute; reflexivity|].
    apply (CG_cond [KN] [KInt (B "1")] [KInt (B "0")]); repeat (apply CG_up; [lia|lia|]); constructor.
  - apply (C_cond_t 2 EVar (EInt (B "1")) (EInt (B "0")) 2); [constructor|discriminate|].
    apply (C_int 2 (B "1")). vm_compute. reflexivity.
Qed.
Print Assumptions C04_truth_refuted.
Theorem C04_lazy_refuted : exists s e n v, c_text s e /\ cval n e v /\ eval s n = EvErr.
Proof.
  exists (B "n != 0 && 10/n"), (EBin BLand (EBin BNe EVar (EInt (B "0"))) (EBin BDiv (EInt (B "10")) EVar)), 0, 0.
  split; [|split; [|vm_compute; reflexivity]].
  - exists [KN; KNe; KInt (B "0"); KLand; KInt (B "10"); KDiv; KN].
    split; [apply lex_layout; vm_compute; reflexivity|].
    do 2 (apply CG_up; [lia|lia|]).
    apply (CG_bin KLand BLand 3 [KN; KNe; KInt (B "0")] [KInt (B "10"); KDiv; KN]); [constructor| |].
    + do 4 (apply CG_up; [lia|lia|]). apply (CG_bin KNe BNe 7 [KN] [KInt (B "0")]); [constructor| |];
        repeat (apply CG_up; [lia|lia|]); constructor.
    + do 7 (apply CG_up; [lia|lia|]). apply (CG_bin KDiv BDiv 11 [KInt (B "10")] [KN]); [constructor| |];
        repeat (apply CG_up; [lia|lia|]); constructor.
  - apply C_and_f. apply (C_bin 0 BNe EVar (EInt (B "0")) 0 0); [constructor| |].
    + apply (C_int 0 (B "0")). vm_compute. reflexivity.
    + constructor. right. split; [intros H; apply H; reflexivity|reflexivity].
Qed.
Print Assumptions C04_lazy_refuted.
Theorem C04_xor_refuted : exists s e n v, c_text s e /\ cval n e v /\ eval s n <> EvOk v.
Proof.
  exists (B "n ^ 1"), (EBin BXor EVar (EInt (B "1"))), 1, 0.
  split; [|split; [|vm_compute; discriminate]].
  - exists [KN; KXor; KInt (B "1")]. split; [apply lex_layout; vm_compute; reflexivity|].
    do 4 (apply CG_up; [lia|lia|]). apply (CG_bin KXor BXor 5 [KN] [KInt (B "1")]); [constructor| |];
      repeat (apply CG_up; [lia|lia|]); constructor.
  - apply (C_bin 1 BXor EVar (EInt (B "1")) 1 1); [constructor| |].
    + apply (C_int 1 (B "1")). vm_compute. reflexivity.
    + constructor. intros i _. rewrite Z.bits_0. symmetry. apply xorb_nilpotent.
Qed.
Print Assumptions C04_xor_refuted.
Theorem C04_relational_refuted : exists s e n v, c_text s e /\ cval n e v /\ eval s n <> EvOk v.
Proof.
  exists (B "n >= 1 < 1"), (EBin BLt (EBin BGe EVar (EInt (B "1"))) (EInt (B "1"))), 2, 0.
  split; [|split; [|vm_compute; discriminate]].
  - exists [KN; KGe; KInt (B "1"); KLt; KInt (B "1")]. split; [apply lex_layout; vm_compute; reflexivity|].
    do 7 (apply CG_up; [lia|lia|]).
    apply (CG_bin KLt BLt 8 [KN; KGe; KInt (B "1")] [KInt (B "1")]); [constructor| |].
    + apply (CG_bin KGe BGe 8 [KN] [KInt (B "1")]); [constructor| |];
        repeat (apply CG_up; [lia|lia|]); constructor.
    + repeat (apply CG_up; [lia|lia|]); constructor.
  - assert (N : cval 2 (EInt (B "1")) 1) by (apply (C_int 2 (B "1")); vm_compute; reflexivity).
    eapply C_bin; [eapply C_bin; [apply C_var|exact N|]|exact N|].
    + apply CO_ge. left. split; [lia|reflexivity].
    + apply CO_lt. right. split; [lia|reflexivity].
Qed.
Print Assumptions C04_relational_refuted.
(** Full statement: for every text with a C reading, [cval n e v -> eval s n = EvOk v].
    Proved: conditions boolean-valued, no ^, no [a >= b < c]; then the text has
    the same reading, and the answer is C's value unless an operand that C would
    skip faults, in which case it is an error. *)
Theorem C04_c_semantics_partial : forall s e n v,
  c_text s e -> rel_plain e -> clean e -> int64 n -> cval n e v ->
  (eval s n = EvOk v /\ ~ faults n e) \/ (eval s n = EvErr /\ faults n e).
Proof. exact eval_c_fragment. Qed.
Print Assumptions C04_c_semantics_partial.
Example C04_case : exists e, c_text (B "n==1 || n>4 ? 0 : 1") e /\ rel_plain e /\ clean e /\ cval 7 e 0.
Proof.
  exists (ECond (EBin BLor (EBin BEq EVar (EInt (B "1"))) (EBin BGt EVar (EInt (B "4"))))
                (EInt (B "0")) (EInt (B "1"))).
  split; [|split; [cbn; tauto|split; [cbn; tauto|]]].
  - exists [KN; KEq; KInt (B "1"); KLor; KN; KGt; KInt (B "4"); KQ; KInt (B "0"); KColon; KInt (B "1")].
    split; [apply lex_layout; vm_compute; reflexivity|].
    apply (CG_cond [KN; KEq; KInt (B "1"); KLor; KN; KGt; KInt (B "4")] [KInt (B "0")] [KInt (B "1")]);
      [|repeat (apply CG_up; [lia|lia|]); constructor|repeat (apply CG_up; [lia|lia|]); constructor].
    apply (CG_bin KLor BLor 2 [KN; KEq; KInt (B "1")] [KN; KGt; KInt (B "4")]); [constructor| |].
    + do 5 (apply CG_up; [lia|lia|]). apply (CG_bin KEq BEq 7 [KN] [KInt (B "1")]); [constructor| |];
        repeat (apply CG_up; [lia|lia|]); constructor.
    + do 5 (apply CG_up; [lia|lia|]). apply (CG_bin KGt BGt 8 [KN] [KInt (B "4")]); [constructor| |];
        repeat (apply CG_up; [lia|lia|]); constructor.
  - apply (C_cond_t 7 _ _ _ 1); [|discriminate|apply (C_int 7 (B "0")); vm_compute; reflexivity].
    apply (C_or_f 7 _ _ 1).
    + apply (C_bin 7 BEq EVar (EInt (B "1")) 7 1); [constructor| |].
      * apply (C_int 7 (B "1")); vm_compute; reflexivity.
      * apply CO_eq. right. split; [discriminate|reflexivity].
    + apply (C_bin 7 BGt EVar (EInt (B "4")) 7 4); [constructor| |].
      * apply (C_int 7 (B "4")); vm_compute; reflexivity.
      * apply CO_gt. left. split; [lia|reflexivity].
    + left. split; [discriminate|reflexivity].
Qed.

(** ** C05 *)
Theorem C05_eval_total : forall s n, int64 n ->
  (exists v, eval s n = EvOk v /\ int64 v) \/ eval s n = EvErr.
Proof. exact eval_total. Qed.
Print Assumptions C05_eval_total.
Example C05_case : int64 (2 ^ 63 - 1) /\ eval (B "n+1") (2 ^ 63 - 1) = EvOk (- 2 ^ 63)
  /\ eval (B "1 %% 0 $") 3 = EvErr.
Proof. split; [unfold int64; lia|split; vm_compute; reflexivity]. Qed.

(** ** C06 *)
Theorem C06_malformed_refuted : exists s n, (forall e, ~ wf_text s e) /\ eval s n = EvOk 7.
Proof.
  exists (B "nn"), 7. split; [|vm_compute; reflexivity].
  intros e H. apply wf_text_parse in H. vm_compute in H. discriminate.
Qed.
Print Assumptions C06_malformed_refuted.
(** Full statement: [eval s n = EvOk v -> exists e, wf_text s e].  Proved: what is
    accepted is exactly a text that begins with a well-formed expression not
    continued by the token behind it, or one whose non-blank characters spell one
    of the built-in formulas; everything else is rejected. *)
Theorem C06_accepted_partial : forall s n v, int64 n -> eval s n = EvOk v ->
  (exists f, In (remove_byte SP s, f) commons /\ v = f n)
  \/ (exists e, accepts s e /\ val n e v).
Proof. exact eval_accepted. Qed.
Print Assumptions C06_accepted_partial.
Theorem C06_rejected : forall s n, int64 n -> assoc_bytes (remove_byte SP s) commons = None ->
  (forall e, ~ accepts s e) -> eval s n = EvErr.
Proof. exact eval_rejects. Qed.
Print Assumptions C06_rejected.
Theorem C06_parser_accepts_exactly : forall s e,
  (exists rest, parse_start (lex s) = POk e rest) <-> accepts s e.
Proof. exact parse_iff_accepts. Qed.
Print Assumptions C06_parser_accepts_exactly.
Example C06_case : assoc_bytes (remove_byte SP (B "n+")) commons = None /\ (forall e, ~ accepts (B "n+") e).
Proof.
  split; [vm_compute; reflexivity|]. intros e H. apply parse_iff_accepts in H as [r H].
  vm_compute in H. discriminate.
Qed.
