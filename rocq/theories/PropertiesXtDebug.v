(** Properties of debug mode of the command xtemplate. *)
From Coq Require Import Lia ZArith Sorted Permutation.
From Verif Require Import GoStr GoStrFacts GoQuote GoMap GoMapFacts FileModel PoModel PoSpec BlankSpec BlankFacts
  WriteModel MainModel MainSpec MainFacts PropertiesMain XtModel XtSpec XtKeyFacts XtFacts XtMergeFacts XtRunFacts XtErrModel XtErrSpec.
From Verif Require Import PoCatalogFacts.
From Verif Require Import GoFmt XtErrFacts XtErrKeyFacts XtErrRunFacts PropertiesXtErr XtDebugModel XtDebugSpec XtDebugFacts XtDebugRunFacts.
Import ListNotations.
Local Open Scope Z_scope.

(** the command line [args] asks for an extraction in debug mode *)
Definition debugging (args : list bytes) (vs : list (bytes * value)) : Prop :=
  command vs args /\ bool_of (B "v") vs = false /\ bool_of (B "h") vs = false /\ bool_of (B "d") vs = true
  /\ trim_space (text_of (B "i") [] vs) <> [] /\ trim_space (text_of (B "k") [] vs) <> [].

Section Debug.
Variable isp : N -> bool.
Variable tr : bytes -> bytes.
Variable print : spec -> arg (list bytes) -> bytes.
Variable as_int : arg (list bytes) -> option Z.
Variable extra : list (arg (list bytes)) -> bytes.
Variable open_err read_err : bytes -> bytes.
Variable parse_err : list bytes -> bytes -> bytes -> bytes -> bytes.
Variable write_err : bytes -> bytes.
Variable close_err : bytes.
Variable globs : fs -> bytes -> option (list bytes).
Variable creatable : bytes -> bool.
Variable parses : list bytes -> bytes -> bytes -> bytes -> option (list tnode).
Variable letter number : N -> bool.
Variable written : bytes -> Z * bool.
Variable closes : bool.
Variable verbose : bytes -> bytes -> Prop.
Variable version : bytes.
Variable info : option (bytes * list (bytes * bytes)).
Variable usage : bytes.
Variable complaint : list bytes -> bytes.
Notation runs_e := (runs_e isp tr print as_int extra open_err read_err parse_err write_err close_err globs creatable parses letter number written closes).
Notation runs_d := (runs_d isp tr print as_int extra open_err read_err parse_err write_err close_err globs creatable parses letter number written closes verbose).
Notation main_e := (main_e isp tr print as_int extra open_err read_err parse_err write_err close_err globs creatable parses letter number written closes version info usage complaint).
Notation main_d := (main_d isp tr print as_int extra open_err read_err parse_err write_err close_err globs creatable parses letter number written closes verbose version info usage complaint).
Notation last_words_d := (last_words_d tr print as_int extra verbose).
Notation run_log := (run_log globs creatable parses letter number).
Notation main := (main isp globs creatable parses letter number written closes version info).

(** ** C93: debug mode changes nothing but what is printed *)
Lemma parse_debug args : parse_flags (B "-d" :: args) default_flags = parse_flags args (set_one default_flags (B "d", VBool true)).
Proof. exact (parse_one (B "d") (VBool true) [B "-d"] args default_flags (Sp_flag (B "d") (B "-") (or_introl eq_refl) (or_introl eq_refl))). Qed.
(** the flags of a command line with another [-d] in front of it *)
Inductive twins : parsed -> parsed -> Prop :=
| TW_bad : twins PBad PBad
| TW_help : twins PHelp PHelp
| TW_flags x y : fl_v x = fl_v y -> fl_h x = fl_h y -> fl_i x = fl_i y -> fl_k x = fl_k y -> to_param x = to_param y ->
    fl_d x = true \/ fl_d x = fl_d y -> twins (PFlags x) (PFlags y).
Lemma parse_twins args : twins (parse_flags (B "-d" :: args) default_flags) (parse_flags args default_flags).
Proof.
  rewrite parse_debug. set (x0 := set_one default_flags (B "d", VBool true)).
  pose proof (parse_shape1 (length args) args x0 (le_n _)) as H. pose proof (parse_shape1 (length args) args default_flags (le_n _)) as H'.
  destruct (parse_flags args x0) as [y| |] eqn:E.
  - destruct H as (vs & C & ->). rewrite (parse_command vs args _ C). destruct C as (a & r & _ & G & _).
    rewrite !set_all_over by exact (gives_typed _ _ G). unfold x0, over.
    apply TW_flags; try reflexivity. cbn [fl_d]. destruct (last_given (B "d") vs) as [[v|b]|]; auto.
  - rewrite (parse_help args default_flags H). constructor.
  - destruct (parse_flags args default_flags) as [y| |].
    + destruct H' as (vs & C & ->). rewrite (parse_command vs args x0 C) in E. discriminate.
    + rewrite (parse_help args x0 H') in E. discriminate.
    + constructor.
Qed.
(** With [-d] in front, the command does what it does without: the same exit status and the same
    files; what it prints on standard output ends with what it prints without. *)
Theorem C93_same : forall now args w,
  (forall status fs out err, main_d now (B "-d" :: args) w status fs out err ->
     exists log out' err', out = log ++ out' /\ main_d now args w status fs out' err')
  /\ ((forall s, exists long, verbose s long) -> forall status fs out err, main_d now args w status fs out err ->
     exists log err', main_d now (B "-d" :: args) w status fs (log ++ out) err').
Proof.
  intros now args w. pose proof (parse_twins args) as Tw. split.
  - intros status fs out err M. destruct M as [status fs out err M|x o fs l dbg out err why lw E Ev Eh Ed Eb R Lx Lw].
    + exists [], out. destruct M as [E|E|x E Ev|x E Ev Eh|x E Ev Eh Eb|x o fs out err why E Ev Eh Ed Eb R]; rewrite E in Tw; inversion Tw as [Q|Q|x' y V H I K P D Q Q']; subst;
        eexists; (split; [reflexivity|]).
      * apply MD_plain, ME_bad; auto.
      * apply MD_plain, ME_help; auto.
      * apply MD_plain. eapply ME_version; [eauto|congruence].
      * apply MD_plain. eapply ME_usage; [eauto|congruence..].
      * apply MD_plain. eapply ME_required; [eauto|congruence..].
      * apply MD_plain. destruct D as [D|D]; [congruence|]. eapply ME_run; [eauto|congruence..|rewrite <- P; exact R].
    + rewrite E in Tw. inversion Tw as [Q|Q|x' y V H I K P D Q Q']; subst. destruct (fl_d y) eqn:Dy.
      * exists [], (dbg ++ out), (err ++ lw). split; [reflexivity|]. eapply MD_debug with (x := y); [auto|congruence..|rewrite <- P; exact R|exact Lx|exact Lw].
      * pose proof R as R'. apply runs_d_e in R' as (err' & R').
        exists dbg, out. eexists. split; [reflexivity|]. apply MD_plain. eapply ME_run with (x := y); [auto|congruence..|rewrite <- P; exact R'].
  - intros Tv status fs out err M. destruct M as [status fs out err M|y o fs l dbg out err why lw E Ev Eh Ed Eb R Lx Lw].
    + destruct M as [E|E|y E Ev|y E Ev Eh|y E Ev Eh Eb|y o fs out err why E Ev Eh Ed Eb R]; rewrite E in Tw; inversion Tw as [Q|Q|x y' V H I K P D Q Q']; subst.
      * exists []. eexists. apply MD_plain, ME_bad; auto.
      * exists []. eexists. apply MD_plain, ME_help; auto.
      * exists []. eexists. apply MD_plain. eapply ME_version; [eauto|congruence].
      * exists []. eexists. apply MD_plain. eapply ME_usage; [eauto|congruence..].
      * exists []. eexists. apply MD_plain. eapply ME_required; [eauto|congruence..].
      * destruct (fl_d x) eqn:Dx.
        -- destruct (runs_e_d isp tr print as_int extra open_err read_err parse_err write_err close_err globs creatable parses letter number written closes verbose Tv _ _ _ _ _ _ _ _ R) as (l & err' & R').
           assert (Lg : exists dbg, log_text l dbg).
           { clear. induction l as [|d l (t & IH)]; [exists []; constructor|].
             assert (Ln : exists s, line_text d s).
             { destruct d as [p|[fl|]|n|n|z|z|z| |n|n i|n|n|n|n e|n]; eexists;
                 first [apply (LT_template n [])|apply (LT_cmd z 0)|apply (LT_arg [])|constructor]. }
             destruct Ln as (s & Ln). exists (s ++ t). constructor; assumption. }
           destruct Lg as (dbg & Lg).
           assert (Lw : exists lw, last_words_d o why lw).
           { destruct o; cbn [XtDebugModel.last_words_d]; [exists []; reflexivity| |eexists; reflexivity]. destruct (Tv why) as (long & Vl). eexists _, long. split; [exact Vl|reflexivity]. }
           destruct Lw as (lw & Lw). exists dbg, (err' ++ lw). eapply MD_debug with (x := x); [auto|congruence..|rewrite P; exact R'|exact Lg|exact Lw].
        -- exists []. eexists. apply MD_plain. eapply ME_run with (x := x); [auto|congruence..|rewrite P; exact R].
    + rewrite E in Tw. inversion Tw as [Q|Q|x y' V H I K P D Q Q']; subst. exists [], (err ++ lw). change ([] ++ dbg ++ out) with (dbg ++ out).
      eapply MD_debug with (x := x); [auto|congruence..|destruct D; congruence|congruence|rewrite P; exact R|exact Lx|exact Lw].
Qed.
(** Apart from the text of the log, exit status, files and standard output are those of the model without
    standard error: what is proved about it (C72 and the others) holds in debug mode too. *)
Theorem C93_refines : forall now args w status fs out err, main_d now args w status fs out err ->
  exists fs', main now args w status fs' out /\ forall n, fs n = fs' n.
Proof.
  intros now args w status fs out err M. destruct M as [status fs out err M|x o fs l dbg out err why lw E Ev Eh Ed Eb R Lx Lw].
  - eapply main_e_main; exact M.
  - assert (St : exists more, dbg = B "run param=" ++ more).
    { assert (L0 : exists l', l = DParam (to_param x) :: l') by (destruct R; eexists; reflexivity). destruct L0 as (l' & ->).
      inversion Lx as [|d ds t ts Lt Ls]; subst. inversion Lt; subst. rewrite <- app_assoc. eauto. }
    apply runs_d_e in R as (err' & R). apply runs_e_io in R as (fs' & R & Sm). exists fs'. split; [|exact Sm].
    eapply M_run; eauto. rewrite Ed. exact St.
Qed.
Lemma debug_runs now args vs w status fs out err : debugging args vs -> main_d now args w status fs out err ->
  exists o l log out' err' why lw, runs_d now (asked vs) w o fs l out' err' why /\ log_text l log /\ last_words_d o why lw
    /\ out = log ++ out' /\ err = err' ++ lw /\ status = match o with ROk => 0%nat | RFail | RPanic => 2%nat end.
Proof.
  intros (C & Hv & Hh & Hd & Hi & Hk) M. pose proof (parse_meant vs args C) as P.
  assert (Q : blank_text (fl_i (meant vs)) || blank_text (fl_k (meant vs)) = false).
  { cbn [meant fl_i fl_k]. unfold blank_text. destruct (trim_space (text_of (B "i") [] vs)); [congruence|].
    destruct (trim_space (text_of (B "k") [] vs)); [congruence|reflexivity]. }
  destruct M as [status fs out err M|x o fs l dbg out err why lw E Ev Eh Ed Eb R Lx Lw].
  - exfalso. destruct M as [E|E|x E Ev|x E Ev Eh|x E Ev Eh Eb|x o fs out err why E Ev Eh Ed Eb R]; rewrite P in E; try discriminate; injection E as <-;
      cbn [meant fl_v fl_h fl_d] in *; congruence.
  - rewrite P in E. injection E as <-. exists o, l, dbg, out, err, why, lw. auto 10.
Qed.
(** On standard error there are the same notices as without [-d], with the long text of the error in
    each: for every message dropped and every file that fails, in order; then the end. *)
Theorem C93_reports : sound tr -> (forall m, In m debug_frames -> keeps tr m) ->
  forall now args vs w status fs out err kws files, debugging args vs -> main_d now args w status fs out err ->
  let p := asked vs in let names := names_of p kws in let w1 := opened p w in
  spells (p_keyword p) kws -> (to_file p = true -> creatable (p_output p) = true) -> globs w1 (p_input p) = Some files ->
  (forall n, In n files -> ~ misnamed letter number names w1 n) ->
  exists rs lines end_, told parses p names w1 kws [] files rs
    /\ Forall2 (long_notice p names w1 tr read_err parse_err verbose) rs lines /\ err = concat lines ++ end_
    /\ (status = 0%nat /\ end_ = [] /\ (forall n, In n files -> ~ fails parses p names w1 n)
        \/ status = 2%nat /\ (forall n, In n files -> ~ fails parses p names w1 n)
           /\ (exists why, (exists long, verbose why long /\ says tr (B "run error: %+v") [long] end_) \/ says tr (B "unexpected error: %+v" ++ [NL]) [why] end_)
        \/ status = 2%nat /\ exists a n b why long, files = a ++ n :: b /\ (forall m, In m a -> ~ fails parses p names w1 m) /\ fails parses p names w1 n
           /\ explains p names w1 tr read_err parse_err n why /\ verbose why long /\ says tr (B "run error: %+v") [long] end_).
Proof.
  intros Kv Kd now args vs w status fs out err kws files X M p names w1 Sp Cr Gl Nm.
  destruct (debug_runs _ _ _ _ _ _ _ _ X M) as (o & l & log & out' & err' & why & lw & R & _ & Lw & _ & -> & St). fold p in R.
  assert (Kr : keeps tr (B "run error: %+v")) by (apply Kd; among).
  apply parse_keywords_iff in Sp.
  destruct R as [why K|kws' K T C|kws' w2 K W G|kws' w2 a n b c failed src bad ll er K W G nms Rf Wn I Bn Er|kws' w2 files' c n ll er K W G nms Rf F Er
                |kws' w2 files' c f text r taken ll er K W G nms Rf Er Mk Sv Wt o].
  - apply kw_none in K. congruence.
  - apply Cr in T. congruence.
  - apply opened_eq in W. subst w2. fold w1 in G. congruence.
  - exfalso. apply opened_eq in W. subst w2. fold w1 in G, Wn. assert (files = a ++ n :: b) by congruence. subst files.
    apply kw_some in K. assert (kws' = kws) by congruence. subst kws'. apply (Nm n); [apply in_or_app; right; left; reflexivity|]. exists src, bad. auto.
  - apply opened_eq in W. subst w2. fold w1 in G, Rf, Er. assert (files' = files) by congruence. subst files'.
    apply kw_some in K. assert (kws' = kws) by congruence. subst kws'. apply files_erase in Rf as (Rf & _).
    destruct (run_told _ _ _ _ _ _ _ _ _ _ Rf) as (T & Bd). pose proof (told_first _ _ _ _ _ _ _ _ T) as F1. rewrite F in F1.
    destruct F1 as (a & b & Ef & Fn & Na).
    apply (reports_long _ _ _ _ _ _ parses verbose Kv Kd) in Er as (lines & Fl & ->); [|exact (told_fails _ _ _ _ _ _ _ _ T)].
    destruct Lw as (long & Vl & ->). eexists (c_err c), lines, _. split; [exact T|]. split; [exact Fl|]. split; [reflexivity|]. right. right.
    split; [exact St|]. eexists a, n, b, _, long. split; [exact Ef|]. split; [exact Na|]. split; [exact Fn|].
    split; [exact (file_explains tr print as_int extra Kv _ _ _ _ _ _ _ Fn)|]. split; [exact Vl|].
    exact (long_errorf tr print as_int extra _ _ [VStr long] Kr reads_long_run (Forall_cons (VStr long) Logic.I (Forall_nil _)) eq_refl).
  - apply opened_eq in W. subst w2. fold w1 in G, Rf, Er. assert (files' = files) by congruence. subst files'.
    apply kw_some in K. assert (kws' = kws) by congruence. subst kws'. apply files_erase in Rf as (Rf & _).
    destruct (run_told _ _ _ _ _ _ _ _ _ _ Rf) as (T & Bd).
    apply (reports_long _ _ _ _ _ _ parses verbose Kv Kd) in Er as (lines & Fl & ->); [|exact (told_fails _ _ _ _ _ _ _ _ T)].
    assert (Nf : forall n, In n files -> ~ fails parses p names w1 n).
    { intros m J Fm. enough (false = true) by discriminate. apply Bd. eauto. }
    exists (c_err c), lines, lw. split; [exact T|]. split; [exact Fl|]. split; [reflexivity|]. fold o in Lw, St |- *. destruct o.
    + left. auto.
    + right. left. split; [exact St|]. split; [exact Nf|]. destruct Lw as (long & Vl & ->). eexists. left. exists long. split; [exact Vl|].
      exact (long_errorf tr print as_int extra _ _ [VStr long] Kr reads_long_run (Forall_cons (VStr long) Logic.I (Forall_nil _)) eq_refl).
    + right. left. split; [exact St|]. split; [exact Nf|]. eexists. right. rewrite Lw. exact (says_one tr print as_int extra Kv _ _ _ _ reads_unexpected ltac:(among)).
Qed.

(** ** C94: the debug log accounts for every use of a keyword *)
(** In debug mode the standard output is the log and then what is printed without; the log says, line by
    line, what [run_log] says: the parameters, the files, for each file its templates, their pipelines,
    commands and arguments, and for each use of a keyword one verdict; then the number of messages. *)
Theorem C94_log : forall now args vs w status fs out err, debugging args vs -> main_d now args w status fs out err ->
  exists l log out', out = log ++ out' /\ log_text l log /\ run_log (asked vs) w l.
Proof.
  intros now args vs w status fs out err X M.
  destruct (debug_runs _ _ _ _ _ _ _ _ X M) as (o & l & log & out' & err' & why & lw & R & Lx & _ & -> & _).
  exists l, log, out'. split; [reflexivity|]. split; [exact Lx|]. eapply runs_d_log; exact R.
Qed.
(** there is one such log *)
Theorem C94_unique : forall p w l l', run_log p w l -> run_log p w l' -> l = l'.
Proof. exact (run_log_fun globs creatable parses letter number). Qed.
(** The messages it announces as fine are exactly the messages extracted, in order; what it counts at the
    end is the number of different ones. *)
Theorem C94_messages : forall now args vs w fs out err, debugging args vs -> main_d now args w 0 fs out err ->
  exists l log out' kws files es c before, out = log ++ out' /\ log_text l log
    /\ spells (p_keyword (asked vs)) kws /\ globs (opened (asked vs) w) (p_input (asked vs)) = Some files
    /\ collected parses (asked vs) (names_of (asked vs) kws) (opened (asked vs) w) kws files es
    /\ announced l = es /\ l = before ++ [DDone c] /\ distinct es c.
Proof.
  intros now args vs w fs out err X M.
  destruct (debug_runs _ _ _ _ _ _ _ _ X M) as (o & l & log & out' & err' & why & lw & R & Lx & _ & -> & _ & St).
  destruct o; try discriminate.
  exists l, log, out'.
  inversion R as [| | | | |kws w1 files c f text r taken ll er K W G nms Rf Er Mk Sv Wt o E1 E2 E3 E4 E5]. subst.
  apply opened_eq in W. subst w1. exists kws, files. apply files_erase in Rf as (Rf & Nm & ls & Fl & ->).
  destruct (files_collect _ _ _ _ _ _ _ _ _ _ [] _ _ eq_refl (merges_new kws) Rf) as (es & Co & Mg).
  exists es, (length (c_entries c)), ([DParam (asked vs); DGlob (Some files)] ++ concat ls).
  split; [reflexivity|]. split; [exact Lx|]. split; [exact (kw_spells _ _ _ _ _ _ _ K)|]. split; [exact G|]. split; [exact Co|].
  split; [|split; [rewrite <- app_assoc; reflexivity|exact (merges_distinct _ _ Mg)]].
  rewrite !announced_app, (files_announce _ _ _ _ _ _ _ _ Fl Co). apply app_nil_r.
Qed.
End Debug.
(** every use of a keyword gets exactly one verdict *)
Theorem C94_verdict : forall line k args n, exists d, verdict line k args n d /\ forall d', verdict line k args n d' -> d' = d.
Proof.
  intros line k args n. destruct (speaks_filter_one [] line (k_name k) n args k) as (l & D & (pl & -> & _ & C)).
  assert (N : pl <> []).
  { intros ->. destruct (D (new_ctx []) eq_refl) as [E _]. revert E. unfold filter_one_d. rewrite beq_refl.
    destruct (length args <=? arg_count k + n)%nat; [discriminate|]. destruct (literals_d _ _ _); [|discriminate]. unfold extract_d.
    destruct (if k_ctxt k >? 0 then _ else _); [|discriminate]. destruct (pos_text _ (k_id k)); [|discriminate].
    destruct (if k_id2 k >? 0 then _ else _); discriminate. }
  destruct pl as [|[o d] pl]; [congruence|]. destruct (proj1 (C o d) (or_introl eq_refl)) as (_ & _ & V). exists d. split; [exact V|].
  intros d' V'. exact (verdict_fun _ _ _ _ _ _ V' V).
Qed.
(** a message is announced where, and only where, it is extracted *)
Theorem C94_announced : forall file kws t o name e, logged file kws t o (DOk name e) <-> exists k, name = k_name k /\ message file kws t o k e /\ gapless k.
Proof. exact announced_message. Qed.
Print Assumptions C93_same.
Print Assumptions C93_refines.
Print Assumptions C93_reports.
Print Assumptions C94_log.
Print Assumptions C94_unique.
Print Assumptions C94_messages.
Print Assumptions C94_verdict.
Print Assumptions C94_announced.

(** *** Samples *)
Definition g_kws : list keyword := [kw (B "T") 0 1 0; kw (B "N") 0 1 2; kw (B "G") 0 2 0].
Definition g_tree : tnode := TList
  [TAction 1 [[AIdent (B "T"); AStr (B "x")]]; TOther; TAction 2 [[AStr (B "p")]; [AIdent (B "T")]];
   TIf 3 [[AIdent (B "N"); AStr (B "a")]] (TList [TAction 4 [[AIdent (B "T"); AIdent (B "y")]]]) (Some (TTemplate 5 None));
   TAction 6 [[AIdent (B "G"); AStr (B "a"); AStr (B "b")]]; TAction 7 [[AField [B "T"]; APipe [[AIdent (B "T"); AStr (B "%d")]]]]].
Definition g_entry (line : Z) (id : string) : entry :=
  {| e_cmts := (B "#: f:" ++ dec_Z line) :: (if beq (B id) (B "%d") then [B "#, go-format"] else []);
     e_ctxt := []; e_id := B id; e_plural := false; e_id2 := []; e_str := []; e_strn := [] |}.
(** two messages are fine, one has too few arguments, one is no string, one is beyond what is looked at *)
Example C94_example : complete (logged (B "f") g_kws g_tree)
  [DPipe 1; DCmd 1; DArg; DOk (B "T") (g_entry 1 "x"); DArg;
   DPipe 2; DCmd 2; DArg; DCmd 2; DArg; DOk (B "T") (g_entry 2 "p"); DArg;
   DPipe 3; DCmd 3; DArg; DFew (B "N"); DArg; DPipe 4; DCmd 4; DArg; DNoString (B "T") 1; DArg; DNilPipe 5;
   DPipe 6; DCmd 6; DArg; DNoId (B "G"); DArg; DArg;
   DPipe 7; DCmd 7; DArg; DNoString (B "T") 1; DArg; DPipe 7; DCmd 7; DArg; DOk (B "T") (g_entry 7 "%d"); DArg].
Proof.
  destruct (speaks_node g_kws (B "f") g_tree) as (l & D & C). destruct (D (new_ctx g_kws) eq_refl) as [E _].
  apply (f_equal snd) in E. cbn [snd] in E. subst l. exact C.
Qed.
Example C94_text_example : log_text [DNoString (B "T") 1; DOk (B "T") (g_entry 7 "%d"); DDone 12]
  (B "  >  >  >  ID=T args[1] is not string node" ++ NL ::
   B "【ok】  >  >  ID=T entry=&{MsgCmts:[#: f:7 #, go-format] MsgCtxt: MsgID:%d IsPlural:false MsgID2: MsgStr: MsgStrN:[]}" ++ NL ::
   B "extract done, 12 entries" ++ [NL]).
Proof.
  match goal with |- log_text _ ?t => enough (exists t', log_text [DNoString (B "T") 1; DOk (B "T") (g_entry 7 "%d"); DDone 12] t' /\ t' = t) as (t' & L & <-) by exact L end.
  eexists. split; [repeat eapply LX_cons; try apply LX_nil; constructor|vm_compute; reflexivity].
Qed.
(** a run in debug mode *)
Definition g_long : bytes -> bytes -> Prop := fun s long => long = s ++ B " (1) attached stack trace".
Notation g_main := (main_d s_letter s_tr s_print s_int s_extra s_open s_read s_parse s_open [] s_globs s_creatable s_parses s_letter s_letter s_written true g_long (B "dev") None [] (fun _ => [])).
Definition g_given : list (bytes * value) := (B "d", VBool true) :: s_given "*" "T;N:1,2" "-".
Definition g_args : list bytes := B "-d" :: s_args "*" "T;N:1,2" "-".
Lemma g_debugging : debugging g_args g_given.
Proof.
  split; [|vm_compute; repeat split; discriminate]. destruct (s_command "*" "T;N:1,2" "-") as (a & r & E & G & R).
  exists (B "-d" :: a), r. split; [cbn [app]; rewrite <- E; reflexivity|]. split; [|exact R].
  apply (Gi_flag (B "d") (VBool true) [B "-d"]); [|exact G]. exact (Sp_flag (B "d") (B "-") (or_introl eq_refl) (or_introl eq_refl)).
Qed.
Lemma keeps_id m : keeps s_tr m.
Proof. intros ts R. exists ts. auto. Qed.
Example C93_example : sound s_tr /\ (forall m, In m debug_frames -> keeps s_tr m) /\ debugging g_args g_given
  /\ exists fs out err, g_main [] g_args (s_fs None (Some (B "{{"))) 2%nat fs out err
     /\ err = B "failed to process file b. error message: failed to read file b: open b: permission denied (1) attached stack trace" ++ NL ::
              B "failed to process file c. error message: failed to parse file c: template: :1: unclosed action (1) attached stack trace" ++ NL ::
              B "run error: failed to read file b: open b: permission denied (1) attached stack trace"
     /\ out = B "run param=&{Input:* Left:{{ Right:}} Keyword:T;N:1,2 Function: OutputFile:- Debug:true}" ++ NL ::
              B "Glob files=[a b c] err=<nil>" ++ NL :: B "resolve one file: filename=a" ++ NL ::
              B "process template: [filename=a] [template name=a]" ++ NL :: B "  >  Pipe: Line=1" ++ NL :: B "  >  >  Cmd: Line=1 Pos=2" ++ NL ::
              B "  >  >  >  Cmd.Arg: T" ++ NL ::
              B "【ok】  >  >  ID=T entry=&{MsgCmts:[#: a:1] MsgCtxt: MsgID:x IsPlural:false MsgID2: MsgStr: MsgStrN:[]}" ++ NL ::
              B "  >  >  >  Cmd.Arg: x" ++ NL ::
              B "resolve one file: filename=b" ++ NL :: B "resolve one file: filename=c" ++ [NL].
Proof.
  split; [apply sound_id|]. split; [intros m _; apply keeps_id|]. split; [exact g_debugging|].
  pose (w := s_fs None (Some (B "{{"))). pose (p := asked g_given).
  pose (c := match resolve_files s_parses s_letter s_letter p (known p s_kws) w [B "a"; B "b"; B "c"] false (new_ctx s_kws) with Some (c, _) => c | None => new_ctx [] end).
  eexists _, _, _. split.
  - eapply MD_debug with (x := meant g_given) (o := RFail).
    + exact (parse_meant _ _ (proj1 g_debugging)).
    + reflexivity.
    + reflexivity.
    + reflexivity.
    + vm_compute; reflexivity.
    + change (to_param (meant g_given)) with p.
      eapply D_file with (kws := s_kws) (w1 := w) (files := [B "a"; B "b"; B "c"]) (c := c) (n := B "b").
      * vm_compute; reflexivity.
      * right. split; reflexivity.
      * reflexivity.
      * vm_compute; reflexivity.
      * vm_compute; reflexivity.
      * cbn. eapply RX_cons; [|eapply RX_cons; [|apply RX_nil]]; (eexists; split; [reflexivity|reflexivity]).
    + cbn [app]. do 3 (eapply LX_cons; [constructor|]). eapply LX_cons; [apply (LT_template (B "a") (B "a"))|].
      eapply LX_cons; [constructor|]. eapply LX_cons; [apply (LT_cmd 1 2)|]. eapply LX_cons; [apply (LT_arg (B "T"))|].
      eapply LX_cons; [constructor|]. eapply LX_cons; [apply (LT_arg (B "x"))|]. do 2 (eapply LX_cons; [constructor|]). apply LX_nil.
    + eexists. split; [reflexivity|reflexivity].
  - split; vm_compute; reflexivity.
Qed.
Example C94_run_example : exists fs out err, g_main [] g_args (s_fs (Some (B "{{B}}")) (Some (B "{{A}}"))) 0%nat fs out err.
Proof.
  destruct C82_example as (_ & _ & fs & out & err & M & _).
  destruct (proj2 (C93_same s_letter s_tr s_print s_int s_extra s_open s_read s_parse s_open [] s_globs s_creatable s_parses s_letter s_letter s_written true
    g_long (B "dev") None [] (fun _ => []) [] (s_args "*" "T;N:1,2" "-") (s_fs (Some (B "{{B}}")) (Some (B "{{A}}"))))
    (fun s => ex_intro _ _ eq_refl) _ _ _ _ (MD_plain _ _ _ _ _ _ _ _ _ _ _ _ _ _ _ _ _ _ _ _ _ _ _ _ _ _ _ _ _ M)) as (log & err' & M').
  exists fs, (log ++ out), err'. exact M'.
Qed.
