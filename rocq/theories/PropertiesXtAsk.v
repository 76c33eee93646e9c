(** Property C86, what "every message of xtemplate" means: the program asks for
    no other translations than those of [messages]. *)
From Coq Require Import List ZArith NArith Bool Ascii Lia.
From Verif Require Import GoStr GoFmt FileModel PoModel XtModel MainModel XtErrModel XtUsageModel XtDebugModel XtErrSpec XtLangSpec.
Import ListNotations.

(** two translations of the program that differ in nothing it is said to say *)
Definition same_messages (tr tr' : bytes -> bytes) : Prop := forall m, In m messages -> tr m = tr' m.

Section Ask.
Variable isp : N -> bool.
Variable print : spec -> GoFmt.arg (list bytes) -> bytes.
Variable as_int : GoFmt.arg (list bytes) -> option Z.
Variable extra : list (GoFmt.arg (list bytes)) -> bytes.
Variable open_err read_err : bytes -> bytes.
Variable parse_err : list bytes -> bytes -> bytes -> bytes -> bytes.
Variable write_err : bytes -> bytes.
Variable close_err : bytes.
Variable globs : fs -> bytes -> option (list bytes).
Variable creatable : bytes -> bool.
Variable parses : list bytes -> bytes -> bytes -> bytes -> option (list tnode).
Variable letter number : N -> bool.
Variable written : bytes -> Z * bool.
Variable closes : bool.
Variable verbose : bytes -> bytes -> Prop.
Variable version : bytes.
Variable info : option (bytes * list (bytes * bytes)).
Variable complaint : list bytes -> bytes.

(** the whole program, with and without debug mode, in the language [tr] *)
Definition program (tr : bytes -> bytes) (prog now : bytes) (args : list bytes) (w : fs) : nat -> fs -> bytes -> bytes -> Prop :=
  main_d isp tr print as_int extra open_err read_err parse_err write_err close_err globs creatable parses letter number written closes
    verbose version info (usage_text isp tr print as_int extra prog) complaint now args w.

Section Two.
Variable tr tr' : bytes -> bytes.
Hypothesis same : same_messages tr tr'.
Ltac listed := unfold messages; cbn [In app]; repeat (first [left; reflexivity|right]).
Ltac sames := repeat match goal with |- context [tr (?m)] => rewrite (same m) by listed end.
Lemma positions_same msg name text :
  parse_positions_e isp tr print as_int extra msg name text = parse_positions_e isp tr' print as_int extra msg name text.
Proof. unfold parse_positions_e, tr_f. sames. reflexivity. Qed.
Lemma keyword_same msg key : parse_keyword_e isp tr print as_int extra msg key = parse_keyword_e isp tr' print as_int extra msg key.
Proof.
  unfold parse_keyword_e. destruct (split_byte ":" (trim_space key)) as [|n [|i [|]]]; try reflexivity.
  cbv zeta. rewrite positions_same. reflexivity.
Qed.
Lemma each_same msg ks : parse_each_e isp tr print as_int extra msg ks = parse_each_e isp tr' print as_int extra msg ks.
Proof. induction ks as [|k r IH]; [reflexivity|]. cbn [parse_each_e]. rewrite keyword_same, IH. reflexivity. Qed.
Lemma keywords_same str : parse_keywords_e isp tr print as_int extra str = parse_keywords_e isp tr' print as_int extra str.
Proof. unfold parse_keywords_e, tr_f. sames. apply each_same. Qed.
Lemma file_err_same p names w n :
  file_err tr print as_int extra read_err parse_err p names w n = file_err tr' print as_int extra read_err parse_err p names w n.
Proof. unfold file_err. sames. reflexivity. Qed.
Lemma report_same p names w r :
  report_text tr print as_int extra (file_err tr print as_int extra read_err parse_err p names w) r
  = report_text tr' print as_int extra (file_err tr' print as_int extra read_err parse_err p names w) r.
Proof. destruct r; cbn [report_text]; try rewrite file_err_same; sames; reflexivity. Qed.
Lemma reports_same p names w rs :
  concat (map (report_text tr print as_int extra (file_err tr print as_int extra read_err parse_err p names w)) rs)
  = concat (map (report_text tr' print as_int extra (file_err tr' print as_int extra read_err parse_err p names w)) rs).
Proof. f_equal. apply map_ext. intros r. apply report_same. Qed.
Lemma report_d_same p names w r text :
  report_text_d tr print as_int extra verbose (file_err tr print as_int extra read_err parse_err p names w) r text ->
  report_text_d tr' print as_int extra verbose (file_err tr' print as_int extra read_err parse_err p names w) r text.
Proof. destruct r; cbn [report_text_d]; rewrite ?file_err_same; sames; auto. Qed.
Lemma reports_d_same p names w rs text :
  reports_text tr print as_int extra verbose (file_err tr print as_int extra read_err parse_err p names w) rs text ->
  reports_text tr' print as_int extra verbose (file_err tr' print as_int extra read_err parse_err p names w) rs text.
Proof. induction 1; constructor; [apply report_d_same; assumption|assumption]. Qed.
Lemma usage_same prog : usage_text isp tr print as_int extra prog = usage_text isp tr' print as_int extra prog.
Proof. unfold usage_text, defaults_text. sames. reflexivity. Qed.
Notation runs_e t := (runs_e isp t print as_int extra open_err read_err parse_err write_err close_err globs creatable parses letter number written closes).
Notation runs_d t := (runs_d isp t print as_int extra open_err read_err parse_err write_err close_err globs creatable parses letter number written closes verbose).
Notation main_e t u := (main_e isp t print as_int extra open_err read_err parse_err write_err close_err globs creatable parses letter number written closes
    version info u complaint).
Lemma runs_same now p w o w' out err why : runs_e tr now p w o w' out err why -> runs_e tr' now p w o w' out err why.
Proof.
  destruct 1; unfold tr_f; sames; rewrite ?reports_same, ?file_err_same; rewrite keywords_same in *.
  - eapply E_keywords; eassumption.
  - eapply E_open; eassumption.
  - eapply E_glob; eassumption.
  - eapply E_panic; eassumption.
  - eapply E_file; eassumption.
  - eapply E_write; eassumption.
Qed.
Lemma runs_d_same now p w o w' l out err why : runs_d tr now p w o w' l out err why -> runs_d tr' now p w o w' l out err why.
Proof.
  destruct 1; unfold tr_f; sames; rewrite ?file_err_same; rewrite keywords_same in *;
    try match goal with H : reports_text _ _ _ _ _ _ _ _ |- _ => apply reports_d_same in H end.
  - eapply D_keywords; eassumption.
  - eapply D_open; eassumption.
  - eapply D_glob; eassumption.
  - eapply D_panic; eassumption.
  - eapply D_file; eassumption.
  - eapply D_write; eassumption.
Qed.
Lemma last_same o why : last_words tr print as_int extra o why = last_words tr' print as_int extra o why.
Proof. destruct o; cbn [last_words]; sames; reflexivity. Qed.
Lemma last_d_same o why t : last_words_d tr print as_int extra verbose o why t -> last_words_d tr' print as_int extra verbose o why t.
Proof. destruct o; cbn [last_words_d]; sames; auto. Qed.
Lemma main_same u now args w st w' out err : main_e tr u now args w st w' out err -> main_e tr' u now args w st w' out err.
Proof.
  destruct 1; sames; rewrite ?last_same.
  - apply ME_bad; assumption.
  - apply ME_help; assumption.
  - eapply ME_version; eassumption.
  - eapply ME_usage; eassumption.
  - eapply ME_required; eassumption.
  - eapply ME_run; try eassumption. apply runs_same. assumption.
Qed.
Lemma program_same prog now args w st w' out err : program tr prog now args w st w' out err -> program tr' prog now args w st w' out err.
Proof.
  unfold program. rewrite usage_same. destruct 1 as [st w' out err H|x o w' l dbg out err why lw F V Hh D Bl R L W].
  - apply MD_plain, main_same, H.
  - eapply MD_debug; try eassumption; [apply runs_d_same; eassumption|apply last_d_same; assumption].
Qed.
End Two.

(** Whatever else two language packs differ in, the program does and says the same
    with both, if they agree on its messages. *)
Theorem C86_asks : forall tr tr', same_messages tr tr' ->
  forall prog now args w status w' out err,
    program tr prog now args w status w' out err <-> program tr' prog now args w status w' out err.
Proof.
  intros tr tr' S prog now args w st w' out err. split; apply program_same; [exact S|].
  intros m I. symmetry. exact (S m I).
Qed.
End Ask.
Print Assumptions C86_asks.

(** And it asks for every one of them: there is a command line that prints the
    translation of the message, marked here by a sign no other text has. *)
Definition only (m : bytes) : bytes -> bytes := fun x => if beq x m then B "@" else x.
(** a machine whose other texts are empty: patterns other than [*] are bad, no file can
    be created, [a] is the only readable file and a non-empty file is the template
    [{{T "x"}}{{N "x" "y"}}] *)
Definition m_globs (_ : fs) (p : bytes) : option (list bytes) :=
  if beq p (B "*") then Some [B "a"; B "b"] else None.
Definition m_parses (_ : list bytes) (_ _ src : bytes) : option (list tnode) :=
  if is_empty src then None
  else Some [TList [TAction 1 [[AIdent (B "T"); AStr (B "x")]]; TAction 2 [[AIdent (B "N"); AStr (B "x"); AStr (B "y")]]]].
Definition m_file (text : bytes) : fs := fun n => if beq n (B "a") then Some text else None.
Definition marked (tr : bytes -> bytes) : bytes -> bytes -> list bytes -> fs -> nat -> fs -> bytes -> bytes -> Prop :=
  program (fun _ => false) (fun _ _ => []) (fun _ => None) (fun _ => []) (fun _ => []) (fun _ => []) (fun _ _ _ _ => []) (fun _ => []) []
    m_globs (fun _ => false) m_parses (fun _ => false) (fun _ => false) (fun _ => (0%Z, false)) true eq [] None (fun _ => []) tr.
Definition asked (m : bytes) : Prop :=
  exists args text status w' out err, ~ In "@"%char (concat args ++ text)
    /\ marked (only m) [] [] args (m_file text) status w' out err /\ In "@"%char err.
Lemma has s : existsb (Ascii.eqb "@") s = true -> In "@"%char s.
Proof. intros E. apply existsb_exists in E as (x & I & E). apply Ascii.eqb_eq in E. subst. exact I. Qed.
Lemma has_not s : existsb (Ascii.eqb "@") s = false -> ~ In "@"%char s.
Proof.
  intros E I. rewrite <- not_true_iff_false in E. apply E. apply existsb_exists. eexists. split; [exact I|reflexivity].
Qed.
Ltac calc := vm_compute; reflexivity.
Tactic Notation "start" constr(a) constr(t) "by" tactic3(tac) :=
  exists a, t; do 4 eexists; split; [apply has_not; calc|split; [tac|apply has; calc]].
Ltac plainly := apply MD_plain; eapply ME_run; [calc|calc|calc|calc|calc|].
Lemma log_exists l : exists t, log_text l t.
Proof.
  induction l as [|d l (t & IH)]; [exists []; constructor|].
  assert (H : exists u, line_text d u) by (destruct d as [p|[files|]|n|n|l'|l'|l'| |n|n i|n|n|n|n e|n]; eexists;
    first [apply (LT_template _ [])|apply (LT_cmd _ 0%Z)|apply (LT_arg [])|constructor]).
  destruct H as (u & H). exists (u ++ t). constructor; assumption.
Qed.
Lemma asked_usage m : In m messages -> existsb (Ascii.eqb "@") (usage_text (fun _ => false) (only m) (fun _ _ => []) (fun _ => None) (fun _ => []) []) = true -> asked m.
Proof. intros _ E. exists [B "-h"], []. do 4 eexists. split; [apply has_not; calc|split; [apply MD_plain; eapply ME_usage; calc|apply has; exact E]]. Qed.
Lemma asked_debug m args text x o w' l out err why lw : existsb (Ascii.eqb "@") (concat args ++ text) = false ->
  parse_flags args default_flags = PFlags x -> fl_v x = false -> fl_h x = false -> fl_d x = true -> blank_text (fl_i x) || blank_text (fl_k x) = false ->
  runs_d (fun _ => false) (only m) (fun _ _ => []) (fun _ => None) (fun _ => []) (fun _ => []) (fun _ => []) (fun _ _ _ _ => []) (fun _ => []) []
    m_globs (fun _ => false) m_parses (fun _ => false) (fun _ => false) (fun _ => (0%Z, false)) true eq [] (to_param x) (m_file text) o w' l out err why ->
  last_words_d (only m) (fun _ _ => []) (fun _ => None) (fun _ => []) eq o why lw ->
  existsb (Ascii.eqb "@") (err ++ lw) = true -> asked m.
Proof.
  intros N F V H D Bl R L E. destruct (log_exists l) as (dbg & Lg).
  exists args, text. do 4 eexists. split; [apply has_not, N|split; [|apply has; exact E]].
  eapply MD_debug; eassumption.
Qed.
Ltac keys k := start [B "-i"; B "*"; B "-k"; k] (@nil ascii) by (plainly; apply E_keywords; calc).
Ltac files t := start [B "-i"; B "*"; B "-k"; B "T;N:1,2"] t by (plainly; eapply E_file; [calc|right; split; calc|calc|calc|calc]).
Ltac files_d t := eapply asked_debug with (args := [B "-i"; B "*"; B "-k"; B "T;N:1,2"; B "-d"]) (text := t);
  [calc|calc|calc|calc|calc|calc
  |eapply D_file; [calc|right; split; calc|calc|calc|calc|repeat (apply RX_cons; [eexists; split; reflexivity|]); apply RX_nil]
  |eexists; split; reflexivity|calc].
Theorem C86_asked : forall m, In m messages -> asked m.
Proof.
  intros m I. destruct (existsb (Ascii.eqb "@") (usage_text (fun _ => false) (only m) (fun _ _ => []) (fun _ => None) (fun _ => []) [])) eqn:U;
    [apply asked_usage; assumption|].
  cbn [messages In] in I.
  repeat (destruct I as [<-|I]; [try (vm_compute in U; discriminate U); clear U|]); [..|destruct I].
  - start [B "-i"; B "*"; B "-k"; B "T"; B "-f"; B "1"] (B "x") by
    (plainly; eapply E_panic with (a := []) (n := B "a") (bad := B "1"); [calc|right; split; calc|calc|calc|calc|right; left; reflexivity|calc]).
  - eapply asked_debug with (args := [B "-i"; B "*"; B "-k"; B ":"; B "-d"]) (text := []);
      [calc|calc|calc|calc|calc|calc|apply D_keywords; calc|eexists; split; reflexivity|calc].
  - keys (B ":").
  - start (@nil bytes) (@nil ascii) by (apply MD_plain; eapply ME_required; calc).
  - start [B "-i"; B "["; B "-k"; B "T"] (@nil ascii) by (plainly; eapply E_glob; [calc|right; split; calc|calc]).
  - files_d (@nil ascii).
  - files (@nil ascii).
  - files (B "x").
  - files (@nil ascii).
  - files_d (B "x").
  - files (B "x").
  - keys (B ":").
  - keys (B "a:x").
  - keys (B "a:xc,1").
  - keys (B "a:1c,x").
  - keys (B "a:1,x").
  - keys (B "a:1,1,1").
  - keys (B "a:xc,1,1").
  - keys (B "a:1,1,1,1").
  - start [B "-i"; B "*"; B "-k"; B "T"; B "-o"; B "f"] (@nil ascii) by (plainly; eapply E_open; calc).
  - files (B "x").
Qed.
Print Assumptions C86_asked.
(** a pack that translates something else, and one of the messages *)
Example C86_asks_case : same_messages (fun m => m) (only (B "not a message")) /\ asked (B "Warning: %v")
  /\ only (B "not a message") (B "not a message") <> B "not a message".
Proof.
  split; [|split; [|discriminate]].
  - intros m I. unfold only. destruct (beq m (B "not a message")) eqn:E; [|reflexivity]. exfalso.
    assert (X : existsb (fun x => beq x (B "not a message")) messages = false) by (vm_compute; reflexivity).
    rewrite <- not_true_iff_false in X. apply X. apply existsb_exists. exists m. auto.
  - apply C86_asked. unfold messages. cbn [In app]. repeat (first [left; reflexivity|right]).
Qed.
