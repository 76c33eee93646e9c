(** Properties C55 and C57: errors and their causes. *)
From Coq Require Import Lia.
From Verif Require Import GoStr GoStrFacts GoFmt FmtSpec GoFmtFacts FormatFacts SliceModel SliceFacts ErrModel ErrSpec ErrFacts FmtTextSpec WrapsSpec WrapsFacts.
Local Open Scope Z_scope.

(** ** C55.  [Is] finds what unwrapping reaches. *)
Theorem C55_is : forall cmp e t, Is cmp (Some e) (Some t) = true <-> sees cmp e t.
Proof. intros cmp e t. apply is_sees. Qed.
Print Assumptions C55_is.
(** An error made by Wrapf with a format that has the verbs for its arguments is
    itself, has the causes of the wrapped error, and the causes of the errors
    the format wraps on its own; nothing else.
    Partial: for other formats the cause is lost, see below. *)
Theorem C55_wrapf_partial : forall A (print : spec -> arg (val A) -> bytes) as_int extra cmp next e ps args out t,
  pieces_ok ps -> all_means as_int args ps 0 out (length args) ->
  (Is cmp (Some (Wrapf print as_int extra next e (format_text ps) args)) (Some t) = true <->
   (cmp = true /\ e_ident t = next) \/ sees_opt cmp e t \/ exists w, under_w out w /\ sees cmp w t).
Proof.
  intros A print as_int extra cmp next e ps args out t Ok M. cbn [Is].
  destruct (wrapf_kids print as_int extra next e ps args out Ok M) as [m ->]. rewrite is_sees, sees_node. split.
  - intros [[C E]|(k & I & S)]; [left; auto|]. right. apply in_app_or in I as [I|I].
    + right. exists k. split; [apply wrapped_under, I|exact S].
    + left. destruct e as [x|]; [destruct I as [->|[]]|destruct I]. exists k. auto.
  - intros [[C E]|[(x & -> & S)|(w & U & S)]]; [left; auto| |]; right.
    + exists x. split; [apply in_or_app; right; left; reflexivity|exact S].
    + exists w. split; [apply in_or_app; left; apply wrapped_under, U|exact S].
Qed.
Print Assumptions C55_wrapf_partial.
Theorem C55_secondary : forall A (print : spec -> arg (val A) -> bytes) as_int extra cmp next e e' t,
  Is cmp (Some (WithSecondaryError print as_int extra next e e')) (Some t) = true <->
  (cmp = true /\ e_ident t = next) \/ sees_opt cmp e t \/ sees_opt cmp e' t.
Proof.
  intros A print as_int extra cmp next e e' t. cbn [Is].
  destruct (secondary_kids print as_int extra next e e') as [m ->]. rewrite is_sees, sees_node. split.
  - intros [[C E]|(k & I & S)]; [left; auto|]. right. apply in_app_or in I as [I|I].
    + left. destruct e as [x|]; [destruct I as [->|[]]|destruct I]. exists k. auto.
    + right. destruct e' as [x|]; [destruct I as [->|[]]|destruct I]. exists k. auto.
  - intros [[C E]|[(x & -> & S)|(x & -> & S)]]; [left; auto| |]; right; exists x; (split; [|exact S]); apply in_or_app.
    + left; left; reflexivity.
    + right; left; reflexivity.
Qed.
Print Assumptions C55_secondary.
(** Any nesting: an error that existed before is seen exactly if one of the
    errors at the leaves sees it. *)
Theorem C55_nested : forall A (print : spec -> arg (val A) -> bytes) as_int extra cmp next (x : nest A) t,
  plain_nest as_int x -> (e_ident t < next)%nat ->
  (Is cmp (Some (fst (nest_eval print as_int extra next x))) (Some t) = true <-> exists l, In l (leaves x) /\ sees cmp l t).
Proof. intros A print as_int extra cmp next x t P L. cbn [Is]. rewrite is_sees. apply nest_sees; assumption. Qed.
Print Assumptions C55_nested.
(** nil *)
Theorem C55_nil : forall cmp e t, (Is cmp e None = true <-> e = None) /\ Is cmp None (Some t) = false.
Proof. intros cmp [e|] t; cbn; intuition discriminate. Qed.
Print Assumptions C55_nil.
(** The cause is lost if the format ends in a per cent sign, or has a verb too
    many, or an argument too many. *)
Definition cause : err := Err 7 (B "cause") (fun _ => false) [].
Theorem C55_lost_refuted :
  forall A (print : spec -> arg (val A) -> bytes) as_int extra next, next <> 7%nat ->
  forall cmp, Is cmp (Some (Wrapf print as_int extra next (Some cause) (B "done 50%") [])) (Some cause) = false
  /\ Is cmp (Some (Wrapf print as_int extra next (Some cause) (B "reading %s") [])) (Some cause) = false
  /\ Is cmp (Some (Wrapf print as_int extra next (Some cause) (B "reading") [VStr (B "x")])) (Some cause) = false.
Proof.
  intros A print as_int extra next N cmp. apply Nat.eqb_neq in N. cbn. rewrite N. repeat split; destruct cmp; reflexivity.
Qed.
Print Assumptions C55_lost_refuted.
(** The model keeps the errors wrapped by one Errorf in the order of the format,
    fmt sorts them and drops repetitions: [Is] cannot tell, nor does it matter
    anywhere within a larger error. *)
Inductive regroup : err -> err -> Prop :=
| RG id m f ks ks' : (forall k, In k ks -> exists k', In k' ks' /\ regroup k k') -> (forall k', In k' ks' -> exists k, In k ks /\ regroup k k') ->
    regroup (Err id m f ks) (Err id m f ks').
Theorem C55_order : forall cmp e e' t, regroup e e' -> Is cmp (Some e) (Some t) = Is cmp (Some e') (Some t).
Proof.
  intros cmp e e' t. cbn [Is]. generalize (e_ident t). clear t. intros t. revert e e'.
  fix F 1. intros [id m f ks] e' H. inversion H as [id0 m0 f0 ks0 ks' H1 H2 E1 E2]; subst. cbn [is_]. f_equal.
  assert (G : Forall (fun k => forall k', regroup k k' -> is_ cmp k t = is_ cmp k' t) ks).
  { clear - F. induction ks as [|k ks IH]; constructor; [apply F|exact IH]. }
  rewrite Forall_forall in G. apply Bool.eq_true_iff_eq. rewrite !existsb_exists. split.
  - intros (k & I & T). destruct (H1 k I) as (k' & I' & Rk). exists k'. rewrite <- (G k I k' Rk). auto.
  - intros (k' & I' & T). destruct (H2 k' I') as (k & I & Rk). exists k. rewrite (G k I k' Rk). auto.
Qed.
Print Assumptions C55_order.
Example C55_order_case :
  let leaf n := Err n (B "x") (fun _ => false) [] in
  regroup (Err 9%nat (B "a: b: a") (fun _ => false) [leaf 1%nat; leaf 2%nat; leaf 1%nat]) (Err 9%nat (B "a: b: a") (fun _ => false) [leaf 2%nat; leaf 1%nat])
  /\ Is true (Some (Err 9%nat (B "a: b: a") (fun _ => false) [leaf 2%nat; leaf 1%nat])) (Some (leaf 1%nat)) = true.
Proof.
  cbv zeta. assert (L : forall n, regroup (Err n (B "x") (fun _ => false) []) (Err n (B "x") (fun _ => false) []))
    by (intros n; constructor; intros k []).
  split; [|reflexivity]. constructor; cbn [In]; intros k H; repeat (destruct H as [<-|H]); try contradiction;
    (eexists; split; [|apply L]); auto.
Qed.
(** For every well-formed format, whatever its arguments: the error made by Wrapf
    is itself and has exactly the causes of the errors its format takes under
    the verb w, and of the value at which the format leaves off (the wrapped
    error comes after the arguments), if that is an error. *)
Theorem C55_wrapf_exactly : forall A (print : spec -> arg (val A) -> bytes) as_int extra cmp next e ps args t, pieces_ok ps ->
  (exists ws k, takes as_int (args ++ [boxed e]) ps 0 ws k)
  /\ forall ws k, takes as_int (args ++ [boxed e]) ps 0 ws k ->
     (Is cmp (Some (Wrapf print as_int extra next e (format_text ps) args)) (Some t) = true <->
      (cmp = true /\ e_ident t = next) \/ (exists w, In w ws /\ sees cmp w t)
      \/ exists x, nth_error (args ++ [boxed e]) k = Some (VOther (VErr x)) /\ sees cmp x t).
Proof.
  intros A print as_int extra cmp next e ps args t Ok.
  destruct (wrapf_takes print as_int extra next e ps args Ok) as (m & ws & k & T & E). split; [exists ws, k; exact T|].
  intros ws' k' T'. destruct (takes_unique _ _ _ _ _ _ _ _ T' T) as [-> ->]. rewrite E. cbn [Is]. rewrite is_sees, sees_node. split.
  - intros [[C N]|(x & I & S)]; [left; auto|]. right. apply in_app_or in I as [I|I]; [left; exists x; auto|]. right.
    destruct (nth_error (args ++ [boxed e]) k) as [[| |[y| |]]|]; try destruct I; [|contradiction]. subst y. exists x. auto.
  - intros [[C N]|[(x & I & S)|(x & N & S)]]; [left; auto| |]; right; exists x; (split; [|exact S]); apply in_or_app; [left; exact I|].
    right. rewrite N. left. reflexivity.
Qed.
Print Assumptions C55_wrapf_exactly.
(** A format that ends within a directive: the colon Wrapf adds becomes the verb
    of that directive, which therefore takes an argument too. *)
Theorem C55_unclosed : forall A (print : spec -> arg (val A) -> bytes) as_int extra cmp next e ps d args t,
  pieces_ok (ps ++ [PDir d]) -> d_verb d = B ":" ->
  (exists ws k, takes as_int (args ++ [boxed e]) (ps ++ [PDir d]) 0 ws k)
  /\ forall ws k, takes as_int (args ++ [boxed e]) (ps ++ [PDir d]) 0 ws k ->
     (Is cmp (Some (Wrapf print as_int extra next e (format_text ps ++ open_text d) args)) (Some t) = true <->
      (cmp = true /\ e_ident t = next) \/ (exists w, In w ws /\ sees cmp w t)
      \/ exists x, nth_error (args ++ [boxed e]) k = Some (VOther (VErr x)) /\ sees cmp x t).
Proof.
  intros A print as_int extra cmp next e ps d args t Ok Ev.
  destruct (wrapf_open_takes print as_int extra next e ps d args Ok Ev) as (m & ws & k & T & E). split; [exists ws, k; exact T|].
  intros ws' k' T'. destruct (takes_unique _ _ _ _ _ _ _ _ T' T) as [-> ->]. rewrite E. cbn [Is]. rewrite is_sees, sees_node. split.
  - intros [[C N]|(x & I & S)]; [left; auto|]. right. apply in_app_or in I as [I|I]; [left; exists x; auto|]. right.
    destruct (nth_error (args ++ [boxed e]) k) as [[| |[y| |]]|]; try destruct I; [|contradiction]. subst y. exists x. auto.
  - intros [[C N]|[(x & I & S)|(x & N & S)]]; [left; auto| |]; right; exists x; (split; [|exact S]); apply in_or_app; [left; exact I|].
    right. rewrite N. left. reflexivity.
Qed.
Print Assumptions C55_unclosed.
(** In particular, where no argument is an error: the cause is kept exactly if
    the format leaves off after the last argument or takes the cause by a verb
    w of its own; otherwise nothing of it is found. *)
Theorem C55_kept_exactly : forall A (print : spec -> arg (val A) -> bytes) as_int extra cmp next e ps args t ws k, pieces_ok ps ->
  (forall a x, In a args -> a <> VOther (VErr x)) -> e_ident t <> next -> takes as_int (args ++ [boxed (Some e)]) ps 0 ws k ->
  (Is cmp (Some (Wrapf print as_int extra next (Some e) (format_text ps) args)) (Some t) = true <->
   sees cmp e t /\ (k = length args \/ In e ws)).
Proof.
  intros A print as_int extra cmp next e ps args t ws k Ok Na Nt T.
  rewrite (proj2 (C55_wrapf_exactly A print as_int extra cmp next (Some e) ps args t Ok) ws k T).
  assert (Nth : forall j x, nth_error (args ++ [boxed (Some e)]) j = Some (VOther (VErr x)) -> x = e /\ j = length args).
  { intros j x N. destruct (Nat.lt_ge_cases j (length args)) as [L|L].
    - rewrite nth_error_app1 in N by exact L. apply nth_error_In in N. destruct (Na _ _ N eq_refl).
    - rewrite nth_error_app2 in N by exact L. destruct (j - length args)%nat as [|d] eqn:D.
      + cbn in N. injection N as <-. split; [reflexivity|lia].
      + destruct d; discriminate N. }
  assert (Ws : forall w, In w ws -> w = e).
  { clear -T Nth. generalize dependent 0%nat. revert ws k. induction ps as [|p ps IH]; intros ws k j T w I.
    - inversion T; subst. destruct I.
    - inversion T as [|s ps' k' t' k'' W|d ps' k' u1 j1 u2 j2 D W]; subst; [exact (IH _ _ _ W w I)|].
      apply in_app_or in I as [I|I]; [|exact (IH _ _ _ W w I)].
      destruct D as [d j t1 w' k1 g1 t2 p' k2 g2 k3 g3 o k4 _ _ _ V]. destruct V; try destruct I; [|contradiction]. subst w. exact (proj1 (Nth _ _ H0)). }
  split.
  - intros [[_ E]|[(w & I & S)|(x & N & S)]]; [contradiction| |].
    + pose proof (Ws w I) as X. subst w. auto.
    + destruct (Nth _ _ N) as [-> ->]. auto.
  - intros [S [-> | I]]; right.
    + right. exists e. split; [|exact S]. rewrite nth_error_app2 by lia. rewrite Nat.sub_diag. reflexivity.
    + left. exists e. auto.
Qed.
Print Assumptions C55_kept_exactly.
(** "read msg_id[%d]" around "%s failed" around a foreign error with a cause *)
Definition ex_d (v : bytes) : dir := {| d_flags := []; d_wid := WNone; d_prec := PNone; d_ix := None; d_verb := v |}.
Definition ex_ps : list piece := [PText (B "read msg_id["); PDir (ex_d (B "d")); PText (B "]")].
Definition ex_print (d : spec) (v : arg (val nat)) : bytes := B "?".
Definition ex_as_int (v : arg (val nat)) : option Z := match v with VInt z => Some z | _ => None end.
Lemma ex_plain : plain_format ex_as_int ex_ps [VInt 3].
Proof.
  split; [|split].
  - cbn [pieces_ok ex_ps]. split; [split; [discriminate|cbn; intuition discriminate]|].
    split; [|exact I]. split.
    + split; [intros c []|]. split; [|split; [intros p [=]|split; exact I]].
      left. exists "d"%char. split; [reflexivity|]. split; [reflexivity|]. cbn. intuition discriminate.
    + split; [|exact I]. split; [split; [discriminate|cbn; intuition discriminate]|]. split; exact I.
  - intros d [E|[E|[E|[]]]]; try discriminate. injection E as <-. discriminate.
  - eexists. apply M_text. apply (M_dir _ _ _ _ 0 [CArg (plain 100) (VInt 3)] 1).
    + apply (M_arg ex_as_int [VInt 3] (ex_d (B "d")) 0 [] None 0 [] None 0 (VInt 3)); [discriminate|constructor|constructor|reflexivity].
    + apply M_text. constructor.
Qed.
(** "done 50%": without arguments the open directive takes the cause and hides
    it; with an argument it takes that, and the cause is kept *)
Example C55_unclosed_case :
  let d := {| d_flags := []; d_wid := WNone; d_prec := PNone; d_ix := None; d_verb := B ":" |} in
  let ps := [PText (B "done 50")] in
  pieces_ok (ps ++ [PDir d]) /\ format_text ps ++ open_text d = B "done 50%"
  /\ takes ex_as_int [boxed (Some cause)] (ps ++ [PDir d]) 0 [] 1
  /\ takes ex_as_int [VInt 5; boxed (Some cause)] (ps ++ [PDir d]) 0 [] 1
  /\ Is true (Some (Wrapf ex_print ex_as_int (fun _ => []) 1%nat (Some cause) (B "done 50%") [])) (Some cause) = false
  /\ Is true (Some (Wrapf ex_print ex_as_int (fun _ => []) 1%nat (Some cause) (B "done 50%") [VInt 5])) (Some cause) = true.
Proof.
  cbv zeta. split; [|split; [reflexivity|split; [|split; [|split; reflexivity]]]].
  - split; [split; [discriminate|]|].
    { intros H. cbn in H. repeat (destruct H as [H|H]; [discriminate|]). exact H. }
    split; [|exact I]. split; [|split; exact I]. split; [intros c []|]. split; [|split; [intros p [=]|split; exact I]].
    left. exists ":"%char. split; [reflexivity|]. split; [reflexivity|]. intros H. cbn in H. repeat (destruct H as [H|H]; [discriminate|]). exact H.
  - apply TK_text. apply (TK_directive _ _ _ _ 0 [] 1 [] 1); [|constructor].
    eapply DK_directive; [constructor|constructor|constructor|]. eapply VK_printed; [discriminate|discriminate|reflexivity].
  - apply TK_text. apply (TK_directive _ _ _ _ 0 [] 1 [] 1); [|constructor].
    eapply DK_directive; [constructor|constructor|constructor|]. eapply VK_printed; [discriminate|discriminate|reflexivity].
Qed.
(** "reading %s" without its argument takes the cause as that argument and leaves
    off behind it; "%[2]w of %[1]s" takes it under its own verb *)
Example C55_exactly_case :
  let d v ix := PDir {| d_flags := []; d_wid := WNone; d_prec := PNone; d_ix := ix; d_verb := v |} in
  takes ex_as_int [boxed (Some cause)] [PText (B "reading "); d (B "s") None] 0 [] 1
  /\ takes ex_as_int [VStr (B "x"); boxed (Some cause)] [d (B "w") (Some 2%positive); PText (B " of "); d (B "s") (Some 1%positive)] 0 [cause] 1
  /\ pieces_ok [PText (B "reading "); d (B "s") None]
  /\ pieces_ok [d (B "w") (Some 2%positive); PText (B " of "); d (B "s") (Some 1%positive)].
Proof.
  cbv zeta. split; [|split; [|split]].
  - apply TK_text. apply (TK_directive _ _ _ _ _ [] 1 [] 1); [|constructor].
    apply (DK_directive _ _ _ _ [] None 0 true [] None 0 true 0 true); [constructor..|]. eapply VK_printed; [discriminate..|reflexivity].
  - apply (TK_directive _ _ _ _ _ [cause] 2 [] 1).
    + apply (DK_directive _ _ _ _ [] None 0 true [] None 0 true 1 true); [constructor..| |].
      * apply (PT_index _ 2%positive 0). cbn. lia.
      * apply VK_error; reflexivity.
    + apply TK_text. apply (TK_directive _ _ _ _ _ [] 1 [] 1); [|constructor].
      apply (DK_directive _ _ _ _ [] None 2 true [] None 2 true 0 true); [constructor..| |].
      * apply (PT_index _ 1%positive 2). cbn. lia.
      * eapply VK_printed; [discriminate..|reflexivity].
  - split; [split; [discriminate|cbn; intuition discriminate]|]. split; [|exact I]. split; [|split; exact I].
    split; [intros c []|]. split; [|split; [intros p [=]|split; exact I]].
    left. exists "s"%char. split; [reflexivity|]. split; [reflexivity|]. cbn. intuition discriminate.
  - split; [|split; [|exact I]].
    + split; [intros c []|]. split; [|split; [intros p [= <-]; cbn; unfold small; cbn; lia|split; exact I]].
      left. exists "w"%char. split; [reflexivity|]. split; [reflexivity|]. cbn. intuition discriminate.
    + split; [split; [discriminate|cbn; intuition discriminate]|]. split; [|exact I]. split; [|split; exact I].
      split; [intros c []|]. split; [|split; [intros p [= <-]; cbn; unfold small; cbn; lia|split; exact I]].
      left. exists "s"%char. split; [reflexivity|]. split; [reflexivity|]. cbn. intuition discriminate.
Qed.
Example C55_case :
  let x := NWrapf (NSecondary (NErrorf ex_ps [VInt 3]) (NLeaf (Err 3 (B "open") (fun n => Nat.eqb n 5) [cause]))) ex_ps [VInt 3] in
  plain_nest (A := nat) ex_as_int x /\ (e_ident cause < 8)%nat
  /\ Is true (Some (fst (nest_eval ex_print ex_as_int (fun _ => []) 8 x))) (Some cause) = true
  /\ Is true (Some (fst (nest_eval ex_print ex_as_int (fun _ => []) 8 x))) (Some (Err 5 [] (fun _ => false) [])) = true
  /\ Is true (Some (fst (nest_eval ex_print ex_as_int (fun _ => []) 8 x))) (Some (Err 6 [] (fun _ => false) [])) = false.
Proof.
  cbv zeta. split; [cbn [plain_nest]; pose proof ex_plain; tauto|]. split; [cbn; lia|]. vm_compute. auto.
Qed.

(** ** C57: errors of plural expressions *)
(** Whatever the recogniser reports, the error of an evaluation that reported
    something has ErrAntlr as a cause ... *)
Theorem C57_antlr : forall A (print : spec -> arg (val A) -> bytes) as_int extra antlr next texts, texts <> [] ->
  exists e, listen print as_int extra antlr next None texts = Some e /\ Is true (Some e) (Some antlr) = true.
Proof.
  intros A print as_int extra antlr next texts N.
  destruct (listen print as_int extra antlr next None texts) as [e|] eqn:E.
  - exists e. split; [reflexivity|]. cbn [Is]. apply is_sees. apply (listen_sees _ _ _ true antlr antlr _ _ _ _ E); [|auto].
    exists antlr. split; [constructor|]. left. auto.
  - exfalso. clear -E N. destruct texts as [|m r]; [congruence|]. cbn [listen] in E. unfold add_error in E.
    revert E. generalize (WithSecondaryError print as_int extra (S next) (Some antlr) (Some (Err next m (fun _ => false) []))).
    generalize (S (S next)). clear N. induction r as [|m' r IH]; intros n e E; [discriminate|]. cbn [listen] in E. exact (IH _ _ E).
Qed.
Print Assumptions C57_antlr.
(** ... and there is no error if nothing was reported. *)
Theorem C57_none : forall A (print : spec -> arg (val A) -> bytes) as_int extra antlr next,
  listen print as_int extra antlr next None [] = None.
Proof. reflexivity. Qed.
Print Assumptions C57_none.
(** The error of a recovered panic does not have it (exp.go:18). *)
Theorem C57_panic : forall A (print : spec -> arg (val A) -> bytes) as_int extra antlr next (e : val A) cmp,
  e_ident antlr <> next -> Is cmp (Some (Errorf print as_int extra next (B "unexpected error: %v") [VOther e])) (Some antlr) = false.
Proof.
  intros A print as_int extra antlr next e cmp N. cbn [Is]. unfold Errorf, errorf.
  change (printf_chunks as_int (B "unexpected error: %v") [VOther e])
    with (Some [CText (B "unexpected error: "); CArg (plain 118) (VOther e)]).
  cbn [is_]. destruct e; cbn [wrapped flat_map wrapped1 plain sp_verb N.eqb Pos.eqb app existsb];
    rewrite (proj2 (Nat.eqb_neq _ _) (not_eq_sym N)); destruct cmp; reflexivity.
Qed.
Print Assumptions C57_panic.
Example C57_case : exists e, listen ex_print ex_as_int (fun _ => []) cause 8 None [B "line 1:3"; B "line 1:9"] = Some e
  /\ Is true (Some e) (Some cause) = true /\ e_msg e <> [].
Proof. eexists. vm_compute. repeat split. discriminate. Qed.
