(** C15 for every byte string as format: exactly when Format writes the marker
    for surplus arguments, and which arguments it lists. *)
From Verif Require Import GoStr GoStrFacts GoFmt FmtSpec GoFmtFacts FormatFacts MarkSpec MarkFacts.
From Coq Require Import Lia ZifyBool ZifyNat ZifyN.
Local Open Scope Z_scope.

(** Format scans the format and the directive it appends with the arguments and
    the empty string it appends.  The marker is written exactly when the format,
    without reaching an index in brackets, ends in a directive that gets no verb
    and has left an argument untaken; it lists the arguments left. *)
Theorem C15_exactly : forall (A : Type) (print : spec -> arg A -> bytes) as_int extra s args, args <> [] ->
  exists o, format_f print as_int extra s args = render print extra o
    /\ printf_chunks as_int (s ++ B "%[" ++ dec_Z (Z.of_nat (length args) + 1) ++ B "]s") (args ++ [VStr []]) = Some o
    /\ forall vs, In (CExtra vs) o <-> exists k, left_open s k /\ (k <= length args)%nat /\ vs = skipn k args ++ [VStr []].
Proof.
  intros A print as_int extra s args Ne.
  set (e := B "%[" ++ dec_Z (Z.of_nat (length args) + 1) ++ B "]s").
  destruct (loop_ends as_int (args ++ [VStr []]) (S (length (s ++ e)) + 1) {| s_arg := 0; s_good := true; s_reord := false |} (s ++ e)) as [o Eo]; [lia|].
  exists o. split; [|split].
  - unfold format_f. destruct args as [|a args]; [congruence|]. cbv zeta. rewrite suffix_text. fold e. unfold sprintf, printf_chunks. rewrite Eo. reflexivity.
  - exact Eo.
  - intros vs. change e with ("%"%char :: "["%char :: (dec_Z (Z.of_nat (length args) + 1) ++ B "]s")) in Eo.
    assert (Z : ~ In "%"%char (dec_Z (Z.of_nat (length args) + 1) ++ B "]s")).
    { intros I. apply in_app_or in I. destruct I as [I|[I|[I|[]]]]; try discriminate I.
      assert (D : exists p, Z.of_nat (length args) + 1 = Zpos p) by (destruct (Z.of_nat (length args) + 1) eqn:Ez; [lia|eauto|lia]).
      destruct D as [p Ep]. rewrite Ep in I. apply (dec_digits (Npos p)) in I. discriminate I. }
    rewrite (loop_scan as_int (args ++ [VStr []]) _ Z _ s {| s_arg := 0; s_good := true; s_reord := false |} 0%nat o vs eq_refl eq_refl Eo).
    rewrite app_length. cbn [length]. split; intros (k & Ho & L & ->); exists k; (split; [exact Ho|]); cbn [Nat.add] in *; (split; [lia|]).
    + rewrite skipn_app. replace (k - length args)%nat with 0%nat by lia. reflexivity.
    + rewrite skipn_app. replace (k - length args)%nat with 0%nat by lia. reflexivity.
Qed.
(** A format of text and complete directives without index is not left open, so
    no marker is written. *)
Theorem C15_complete_silent : forall (A : Type) as_int s k (args : list (arg A)) o vs, demands s k -> args <> [] ->
  printf_chunks as_int (s ++ B "%[" ++ dec_Z (Z.of_nat (length args) + 1) ++ B "]s") (args ++ [VStr []]) = Some o -> ~ In (CExtra vs) o.
Proof.
  intros A as_int s k args o vs H Ne E I.
  destruct (C15_exactly A (fun _ _ => []) as_int (fun _ => []) s args Ne) as (o' & _ & E' & X). rewrite E in E'. injection E' as <-.
  apply X in I. destruct I as (m & Ho & _). revert m Ho. clear E X. induction H as [|c s k Nc H IH|b c s k Hb Hv H IH]; intros m Ho.
  - exact (lo_none [] m (fun H => H) Ho).
  - apply lo_text in Ho; [exact (IH m Ho)|exact Nc].
  - destruct (between_run b Hb) as [q R]. apply (lo_verb b q c s m R) in Ho; [|apply (stops_verb b q c R), Hv]. destruct Ho as (m' & Ho & _). exact (IH m' Ho).
Qed.
(** "%5d costs %-3.*": the number takes one argument, the open directive one for
    its star; of three arguments the third is listed, of one none; a number
    that is too long swallows the rest; an index silences the marker *)
Example C15_exactly_case :
  let ex := fun s args => match printf_chunks (fun v => match v with VInt z => Some z | _ => None end) s args with
                          | Some o => filter (fun c => match c with CExtra _ => true | _ => false end) o | None => [CNoVerb] end in
  left_open (B "%5d costs %-3.*") 2
  /\ ex (B "%5d costs %-3.*" ++ B "%[4]s") [@VInt nat 1; VInt 2; VInt 3; VStr []] = [CExtra [VInt 3; VStr []]]
  /\ ex (B "%5d costs %-3.*" ++ B "%[2]s") [@VInt nat 1; VStr []] = []
  /\ left_open (B "%d%123456789d%d") 1
  /\ ex (B "%d%123456789d%d" ++ B "%[3]s") [@VInt nat 1; VInt 2; VStr []] = [CExtra [VInt 2; VStr []]]
  /\ ex (B "%[1]d%" ++ B "%[3]s") [@VInt nat 1; VInt 2; VStr []] = []
  /\ demands (B "%*d%%") 2 /\ ~ left_open (B "%*d%%") 2.
Proof.
  assert (O : forall s, match run QF s with Some _ => True | None => False end -> between s).
  { intros s H. destruct (run QF s) as [z|] eqn:E; [exact (run_between s z E)|destruct H]. }
  assert (V : forall b c, match run QF b with Some s => stops s c | None => False end -> verb_byte b c).
  { intros b c H. destruct (run QF b) as [s|] eqn:E; [apply (stops_verb b s c E), H|destruct H]. }
  assert (St : forall s c, step s c = None -> c <> "["%char -> is_digit c = false -> stops s c).
  { intros s c H1 H2 H3. split; [exact H1|]. split; [exact H2|]. intros [D _]. congruence. }
  assert (D1 : demands (B "%5d costs ") 1).
  { apply (D_dir (B "5") "d" (B " costs ") 0); [apply O; exact I|apply V, St; [reflexivity|discriminate|reflexivity]|].
    repeat (apply D_text; [discriminate|]). apply D_end. }
  assert (D2 : demands (B "%d") 1).
  { apply (D_dir [] "d" [] 0); [apply O; exact I|apply V, St; [reflexivity|discriminate|reflexivity]|apply D_end]. }
  assert (D3 : demands (B "%*d%%") 2).
  { apply (D_dir (B "*") "d" (B "%%") 0); [apply O; exact I|apply V, St; [reflexivity|discriminate|reflexivity]|].
    apply (D_dir [] "%" [] 0); [apply O; exact I|apply V, St; [reflexivity|discriminate|reflexivity]|apply D_end]. }
  cbv zeta. split; [|split; [vm_compute; reflexivity|split; [vm_compute; reflexivity|split; [|split; [vm_compute; reflexivity|split; [vm_compute; reflexivity|split; [exact D3|]]]]]]].
  - exists (B "%5d costs "), (B "-3.*"), [], 1%nat. split; [reflexivity|]. split; [exact D1|]. split; [apply O; exact I|]. split; [left|]; reflexivity.
  - exists (B "%d"), (B "1234567"), (B "89d%d"), 1%nat. split; [reflexivity|]. split; [exact D2|]. split; [apply O; vm_compute; exact I|]. split; [|reflexivity].
    right. exists "8"%char, (B "9d%d"). split; [reflexivity|]. split; [reflexivity|]. exists [], (B "1234567"), 1234567%N. repeat split.
  - intros Ho. destruct (C15_exactly nat (fun _ _ => []) (fun _ => None) (fun _ => []) (B "%*d%%") [VInt 1; VInt 2]) as (o & _ & E & X); [discriminate|].
    apply (C15_complete_silent nat (fun _ => None) (B "%*d%%") 2 [VInt 1; VInt 2] o [VStr []] D3); [discriminate|exact E|].
    apply X. exists 2%nat. split; [exact Ho|]. split; [cbn; lia|reflexivity].
Qed.
Print Assumptions C15_exactly.
Print Assumptions C15_complete_silent.
