(** Properties of what the command xtemplate says on standard error. *)
From Coq Require Import Lia ZArith Sorted.
From Verif Require Import GoStr GoStrFacts GoQuote GoMap GoMapFacts FileModel PoModel PoSpec BlankSpec BlankFacts
  WriteModel MainModel MainSpec MainFacts PropertiesMain XtModel XtSpec XtKeyFacts XtFacts XtMergeFacts XtRunFacts XtErrModel XtErrSpec.
From Coq Require Import Permutation.
From Verif Require Import PoCatalogFacts.
From Verif Require Import GoFmt XtErrFacts XtErrKeyFacts XtErrRunFacts.
Import ListNotations.
Local Open Scope Z_scope.

(** what a command line asks for *)
Definition asked (vs : list (bytes * value)) : param :=
  {| p_input := text_of (B "i") [] vs; p_left := text_of (B "left") (B "{{") vs; p_right := text_of (B "right") (B "}}") vs;
     p_keyword := text_of (B "k") [] vs; p_function := text_of (B "f") [] vs; p_output := text_of (B "o") [] vs |}.
(** the command line [args] asks for an extraction, without debug mode *)
Definition extraction (args : list bytes) (vs : list (bytes * value)) : Prop :=
  command vs args /\ bool_of (B "v") vs = false /\ bool_of (B "h") vs = false /\ bool_of (B "d") vs = false
  /\ trim_space (text_of (B "i") [] vs) <> [] /\ trim_space (text_of (B "k") [] vs) <> [].
(** the names known in templates besides those of the file *)
Definition known (p : param) (kws : list keyword) : list bytes := map k_name kws ++ function_names (p_function p).

Section Speaks.
Variable isp : N -> bool.
Variable tr : bytes -> bytes.
Variable print : spec -> arg (list bytes) -> bytes.
Variable as_int : arg (list bytes) -> option Z.
Variable extra : list (arg (list bytes)) -> bytes.
Variable open_err read_err : bytes -> bytes.
Variable parse_err : list bytes -> bytes -> bytes -> bytes -> bytes.
Variable write_err : bytes -> bytes.
Variable close_err : bytes.
Variable globs : fs -> bytes -> option (list bytes).
Variable creatable : bytes -> bool.
Variable parses : list bytes -> bytes -> bytes -> bytes -> option (list tnode).
Variable letter number : N -> bool.
Variable written : bytes -> Z * bool.
Variable closes : bool.
Variable version : bytes.
Variable info : option (bytes * list (bytes * bytes)).
Variable usage : bytes.
Variable complaint : list bytes -> bytes.
Notation runs_e := (runs_e isp tr print as_int extra open_err read_err parse_err write_err close_err globs creatable parses letter number written closes).
Notation main_e := (main_e isp tr print as_int extra open_err read_err parse_err write_err close_err globs creatable parses letter number written closes version info usage complaint).
Notation main := (main isp globs creatable parses letter number written closes version info).
Notation last_words := (last_words tr print as_int extra).
Lemma main_runs now args vs w status fs out err : extraction args vs -> main_e now args w status fs out err ->
  exists o err' why, runs_e now (asked vs) w o fs out err' why /\ err = err' ++ last_words o why
    /\ status = match o with ROk => 0%nat | RFail | RPanic => 2%nat end.
Proof.
  intros (C & Hv & Hh & Hd & Hi & Hk) M. pose proof (parse_meant vs args C) as P.
  assert (Q : blank_text (fl_i (meant vs)) || blank_text (fl_k (meant vs)) = false).
  { cbn [meant fl_i fl_k]. unfold blank_text. destruct (trim_space (text_of (B "i") [] vs)); [congruence|].
    destruct (trim_space (text_of (B "k") [] vs)); [congruence|reflexivity]. }
  destruct M as [E|E|x E Ev|x E Ev Eh|x E Ev Eh Eb|x o w' out err why E Ev Eh Ed Eb R]; rewrite P in E; try discriminate; injection E as <-.
  - cbn [meant fl_v] in Ev. congruence.
  - cbn [meant fl_h] in Eh. congruence.
  - congruence.
  - exists o, err, why. split; [exact R|]. split; reflexivity.
Qed.
Lemma opened_eq p w w1 : (to_file p = true /\ creatable (p_output p) = true /\ w1 = fs_set w (p_output p) [] \/ to_file p = false /\ w1 = w) -> w1 = opened p w.
Proof. intros [(T & _ & ->)|(T & ->)]; unfold opened; rewrite T; reflexivity. Qed.
Lemma opened_creatable p w w1 : (to_file p = true /\ creatable (p_output p) = true /\ w1 = fs_set w (p_output p) [] \/ to_file p = false /\ w1 = w) ->
  ~ (to_file p = true /\ creatable (p_output p) = false).
Proof. intros [(T & C & _)|(T & _)]; intros (T' & C'); congruence. Qed.
Lemma kw_spells str kws : parse_keywords_e isp tr print as_int extra str = inl kws -> spells str kws.
Proof. intros H. apply parse_keywords_iff. exact (kw_some _ _ _ _ _ _ _ H). Qed.
Hypothesis Kv : sound tr.

(** ** C82: warnings about messages used with and without plural *)
(** A run that succeeds says on standard error one warning for each message it
    drops, in order, and nothing else: every message that differs in plurality
    from the first message with its context and id is dropped, and the warning
    names the message, its place and the places of the messages it conflicts
    with. *)
Theorem C82_warnings : forall now args vs w fs out err, extraction args vs -> main_e now args w 0 fs out err ->
  exists kws files rs lines es, let p := asked vs in let names := known p kws in let w1 := opened p w in
    spells (p_keyword p) kws /\ globs w1 (p_input p) = Some files
    /\ (forall n, In n files -> ~ fails parses p names w1 n)
    /\ told parses p names w1 kws [] files rs
    /\ Forall2 (notice p names w1 tr read_err parse_err) rs lines /\ err = concat lines
    /\ collected parses p names w1 kws files es /\ picked (conflicts es) es (warned_of rs).
Proof.
  intros now args vs w fs out err X M. destruct (main_runs _ _ _ _ _ _ _ _ X M) as (o & err' & why & R & -> & St).
  destruct o; [|discriminate..]. inversion R as [| | | | |kws w1 files c f text r taken K W G names Rf Mk Sv Wt o E1 E2 E3 E4 E5].
  apply opened_eq in W. subst w1. destruct (run_told _ _ _ _ _ _ _ _ _ _ Rf) as (T & Bd).
  destruct (told_warned _ _ _ _ _ _ _ T) as (es & Co & Pk).
  exists kws, files, (c_err c), (map (report_text tr print as_int extra (file_err tr print as_int extra read_err parse_err (asked vs) names (opened (asked vs) w))) (c_err c)), es.
  cbv zeta. split; [exact (kw_spells _ _ K)|]. split; [exact G|].
  split. { intros n I F. enough (false = true) by discriminate. apply Bd. eauto. }
  split; [exact T|]. split; [exact (told_notices _ _ _ _ Kv _ _ _ _ _ _ _ _ _ _ T)|].
  split; [rewrite E1; unfold XtErrModel.last_words; rewrite app_nil_r; congruence|]. split; [exact Co|exact Pk].
Qed.

(** ** C83: files that cannot be read or are no templates *)
(** Every such file is reported, by name and with the reason, in the order of the
    files; the other files are examined all the same; the run then fails with
    the error of the first such file, writing nothing but the notices.  (Unless a
    function name is unacceptable to the template package.) *)
Theorem C83_files : forall now args vs w status fs out err kws files, extraction args vs -> main_e now args w status fs out err ->
  let p := asked vs in let names := known p kws in let w1 := opened p w in
  spells (p_keyword p) kws -> (to_file p = true -> creatable (p_output p) = true) -> globs w1 (p_input p) = Some files ->
  (forall n src name, In n files -> w1 n = Some src -> In name (names ++ scan_func_names src) -> good_name letter number name = true) ->
  (exists n, In n files /\ fails parses p names w1 n) ->
  status = 2%nat /\ fs = w1 /\ out = []
  /\ exists rs lines a n b why text,
       told parses p names w1 kws [] files rs /\ picked (fails parses p names w1) files (failed_names rs)
       /\ Forall2 (notice p names w1 tr read_err parse_err) rs lines
       /\ files = a ++ n :: b /\ (forall m, In m a -> ~ fails parses p names w1 m) /\ fails parses p names w1 n
       /\ explains p names w1 tr read_err parse_err n why
       /\ says tr (B "run error: %v") [why] text /\ err = concat lines ++ text.
Proof.
  intros now args vs w status fs out err kws files X M p names w1 Sp Cr Gl Good Fa.
  destruct (main_runs _ _ _ _ _ _ _ _ X M) as (o & err' & why & R & -> & St). fold p in R.
  apply parse_keywords_iff in Sp.
  destruct R as [why K|kws' K T C|kws' w2 K W G|kws' w2 a n b c failed src bad K W G nms Rf Wn I Bn|kws' w2 files' c n K W G nms Rf F
                |kws' w2 files' c f text r taken K W G nms Rf Mk Sv Wt o].
  - apply kw_none in K. congruence.
  - apply Cr in T. congruence.
  - apply opened_eq in W. subst w2. fold w1 in G. congruence.
  - exfalso. apply opened_eq in W. subst w2. fold w1 in G, Wn. assert (files = a ++ n :: b) by congruence. subst files.
    apply kw_some in K. assert (kws' = kws) by congruence. subst kws'.
    assert (Y : good_name letter number bad = true). { apply (Good n src bad); [apply in_or_app; right; left; reflexivity|exact Wn|exact I]. }
    congruence.
  - apply opened_eq in W. subst w2. fold w1 in G, Rf. assert (files' = files) by congruence. subst files'.
    apply kw_some in K. assert (kws' = kws) by congruence. subst kws'.
    split; [exact St|]. split; [reflexivity|]. split; [reflexivity|].
    destruct (run_told _ _ _ _ _ _ _ _ _ _ Rf) as (T & Bd). pose proof (told_first _ _ _ _ _ _ _ _ T) as F1. rewrite F in F1.
    destruct F1 as (a & b & Ef & Fn & Na).
    exists (c_err c), (map (report_text tr print as_int extra (file_err tr print as_int extra read_err parse_err p nms w1)) (c_err c)), a, n, b.
    eexists (file_err tr print as_int extra read_err parse_err p nms w1 n), _. split; [exact T|]. split; [exact (told_names _ _ _ _ _ _ _ _ T)|].
    split; [exact (told_notices _ _ _ _ Kv _ _ _ _ _ _ _ _ _ _ T)|]. split; [exact Ef|]. split; [exact Na|]. split; [exact Fn|].
    split; [exact (file_explains tr print as_int extra Kv _ _ _ _ _ _ _ Fn)|]. split; [exact (says_one tr print as_int extra Kv _ _ _ _ reads_run_error ltac:(among))|].
    reflexivity.
  - exfalso. apply opened_eq in W. subst w2. fold w1 in G, Rf. assert (files' = files) by congruence. subst files'.
    apply kw_some in K. assert (kws' = kws) by congruence. subst kws'.
    destruct (run_told _ _ _ _ _ _ _ _ _ _ Rf) as (T & Bd). destruct Bd as [_ Bd]. discriminate (Bd Fa).
Qed.
(** whatever happens, a run that does not succeed ends with an explanation *)
Theorem C83_explained : forall now args vs w status fs out err, extraction args vs -> main_e now args w status fs out err -> status <> 0%nat ->
  status = 2%nat /\ exists before why text, err = before ++ text
    /\ (says tr (B "run error: %v") [why] text \/ says tr (B "unexpected error: %+v" ++ [NL]) [why] text).
Proof.
  intros now args vs w status fs out err X M Ns. destruct (main_runs _ _ _ _ _ _ _ _ X M) as (o & err' & why & R & -> & St).
  destruct o; [congruence| |]; (split; [exact St|]); eexists err', why, _; (split; [reflexivity|]).
  - left. exact (says_one tr print as_int extra Kv _ _ _ _ reads_run_error ltac:(among)).
  - right. exact (says_one tr print as_int extra Kv _ _ _ _ reads_unexpected ltac:(among)).
Qed.
(** standard error is all this adds: exit status, files and standard output are
    those of the model without it *)
Theorem C83_same : forall now args w,
  (forall status fs out err, main_e now args w status fs out err -> exists fs', main now args w status fs' out /\ forall n, fs n = fs' n)
  /\ (forall status fs out, debugs args = false -> main now args w status fs out -> exists fs' err, main_e now args w status fs' out err /\ forall n, fs n = fs' n).
Proof. intros now args w. split; [apply main_e_main|apply main_main_e]. Qed.

(** ** C84: errors about the parameters *)
(** A keyword specification that is none: the message says so, quotes the
    specification and tells what is wrong with its first wrong keyword.  (No percent
    sign in it: see below.) *)
Theorem C84_keywords_partial : forall now args vs w status fs out err, extraction args vs -> main_e now args w status fs out err ->
  (forall kws, ~ spells (p_keyword (asked vs)) kws) -> ~ In "%"%char (p_keyword (asked vs)) ->
  status = 2%nat /\ fs = w /\ out = []
  /\ exists why, keyword_error isp tr (p_keyword (asked vs)) why /\ says tr (B "run error: %v") [why] err.
Proof.
  intros now args vs w status fs out err X M Ns Np. destruct (main_runs _ _ _ _ _ _ _ _ X M) as (o & err' & why & R & -> & St).
  destruct R as [why K|kws' K T C|kws' w2 K W G|kws' w2 a n b c failed src bad K W G nms Rf Wn I Bn|kws' w2 files' c n K W G nms Rf F
                |kws' w2 files' c f text r taken K W G nms Rf Mk Sv Wt o]; try (exfalso; exact (Ns _ (kw_spells _ _ K))).
  split; [exact St|]. split; [reflexivity|]. split; [reflexivity|]. exists why. split.
  - exact (keywords_wrong _ _ _ _ _ Kv _ _ Np K).
  - exact (says_one tr print as_int extra Kv _ _ _ _ reads_run_error ltac:(among)).
Qed.
(** An output file that cannot be created: the message quotes its name and gives
    the reason.  (No percent sign in it.) *)
Lemma reads_open : reads (B "can not open output file: %s") [B "can not open output file: "; []].
Proof.
  apply (RD_hole (B "can not open output file: ") (B "s") [] [[]]); [|right; left; reflexivity|].
  - vm_compute. intros H. repeat (destruct H as [H|H]; [discriminate|]). exact H.
  - apply RD_end. intros [].
Qed.
Theorem C84_output_partial : forall now args vs w status fs out err kws, extraction args vs -> main_e now args w status fs out err ->
  let p := asked vs in spells (p_keyword p) kws -> to_file p = true -> creatable (p_output p) = false -> ~ In "%"%char (p_output p) ->
  status = 2%nat /\ fs = w /\ out = []
  /\ exists text, says tr (B "can not open output file: %s") [p_output p] text /\ says tr (B "run error: %v") [because text (open_err (p_output p))] err.
Proof.
  intros now args vs w status fs out err kws X M p Sp Tf Cr Np. destruct (main_runs _ _ _ _ _ _ _ _ X M) as (o & err' & why & R & -> & St). fold p in R.
  apply parse_keywords_iff in Sp.
  destruct R as [why K|kws' K T C|kws' w2 K W G|kws' w2 a n b c failed src bad K W G nms Rf Wn I Bn|kws' w2 files' c n K W G nms Rf F
                |kws' w2 files' c f text r taken K W G nms Rf Mk Sv Wt o]; try (exfalso; exact (opened_creatable _ _ _ W (conj Tf Cr))).
  - exfalso. apply kw_none in K. congruence.
  - split; [exact St|]. split; [reflexivity|]. split; [reflexivity|].
    destruct (proj1 Kv (B "can not open output file: %s") ltac:(among) _ reads_open) as (ts & Rd & L). exists (fill ts [p_output p]). split; [exists ts; auto|].
    rewrite (tr_f_reads print as_int extra tr (B "can not open output file: %s") ts [VStr (p_output p)] Rd); [|repeat constructor|discriminate|reflexivity|rewrite L; apply le_n].
    cbn [map shown]. rewrite wrapf_plain.
    + exact (says_one tr print as_int extra Kv _ _ _ _ reads_run_error ltac:(among)).
    + apply fill_no; [exact (reads_no _ _ Rd)|]. intros x [<-|[]]. exact Np.
Qed.
(** With a percent sign in them or not: a keyword specification that is none and an
    output file that cannot be created stop the run before anything is written,
    and standard error is one message. *)
Theorem C84_stopped : forall now args vs w status fs out err, extraction args vs -> main_e now args w status fs out err ->
  let p := asked vs in (forall kws, ~ spells (p_keyword p) kws) \/ to_file p = true /\ creatable (p_output p) = false ->
  status = 2%nat /\ fs = w /\ out = [] /\ exists why, says tr (B "run error: %v") [why] err.
Proof.
  intros now args vs w status fs out err X M p D. destruct (main_runs _ _ _ _ _ _ _ _ X M) as (o & err' & why & R & -> & St). fold p in R.
  destruct R as [why K|kws' K T C|kws' w2 K W G|kws' w2 a n b c failed src bad K W G nms Rf Wn I Bn|kws' w2 files' c n K W G nms Rf F
                |kws' w2 files' c f text r taken K W G nms Rf Mk Sv Wt o];
    try (exfalso; destruct D as [Ns|D]; [exact (Ns _ (kw_spells _ _ K))|exact (opened_creatable _ _ _ W D)]).
  - split; [exact St|]. split; [reflexivity|]. split; [reflexivity|]. exists why.
    exact (says_one tr print as_int extra Kv _ _ _ _ reads_run_error ltac:(among)).
  - split; [exact St|]. split; [reflexivity|]. split; [reflexivity|]. eexists.
    exact (says_one tr print as_int extra Kv _ _ _ _ reads_run_error ltac:(among)).
Qed.
(** A pattern that is none. *)
Theorem C84_pattern : forall now args vs w status fs out err kws, extraction args vs -> main_e now args w status fs out err ->
  let p := asked vs in spells (p_keyword p) kws -> (to_file p = true -> creatable (p_output p) = true) -> globs (opened p w) (p_input p) = None ->
  status = 2%nat /\ fs = opened p w /\ out = []
  /\ exists text, says tr (B "invalid input pattern") [] text /\ says tr (B "run error: %v") [because text (B "syntax error in pattern")] err.
Proof.
  intros now args vs w status fs out err kws X M p Sp Cr Gl. destruct (main_runs _ _ _ _ _ _ _ _ X M) as (o & err' & why & R & -> & St). fold p in R.
  apply parse_keywords_iff in Sp.
  destruct R as [why K|kws' K T C|kws' w2 K W G|kws' w2 a n b c failed src bad K W G nms Rf Wn I Bn|kws' w2 files' c n K W G nms Rf F
                |kws' w2 files' c f text r taken K W G nms Rf Mk Sv Wt o]; try (exfalso; apply opened_eq in W; subst w2; congruence).
  - exfalso. apply kw_none in K. congruence.
  - exfalso. apply Cr in T. congruence.
  - pose proof (opened_eq _ _ _ W) as ->. split; [exact St|]. split; [reflexivity|]. split; [reflexivity|].
    assert (Np : ~ In "%"%char (B "invalid input pattern")).
    { vm_compute. intros H. repeat (destruct H as [H|H]; [discriminate|]). exact H. }
    destruct (tr_bare tr _ Np (keeps_fits tr _ (proj1 Kv (B "invalid input pattern") ltac:(among)))) as (Sy & Nt). exists (tr (B "invalid input pattern")). split; [exact Sy|].
    rewrite wrapf_plain by exact Nt. exact (says_one tr print as_int extra Kv _ _ _ _ reads_run_error ltac:(among)).
Qed.
(** A function name the template package does not accept, among those given on the
    command line: as soon as a template is read the run stops, naming such a
    function; nothing is written. *)
Theorem C84_names : forall now args vs w status fs out err kws files, extraction args vs -> main_e now args w status fs out err ->
  let p := asked vs in let names := known p kws in let w1 := opened p w in
  spells (p_keyword p) kws -> (to_file p = true -> creatable (p_output p) = true) -> globs w1 (p_input p) = Some files ->
  (exists n src, In n files /\ w1 n = Some src) -> (exists name, In name names /\ good_name letter number name = false) ->
  status = 2%nat /\ fs = w1 /\ out = []
  /\ exists before bad text, In bad names /\ ~ go_identifier letter number bad /\ err = before ++ text
       /\ says tr (B "unexpected error: %+v" ++ [NL]) [B "function name " ++ quote isp bad ++ B " is not a valid identifier"] text.
Proof.
  intros now args vs w status fs out err kws files X M p names w1 Sp Cr Gl (n0 & src0 & In0 & W0) (bad0 & Ib & Gb).
  destruct (main_runs _ _ _ _ _ _ _ _ X M) as (o & err' & why & R & -> & St). fold p in R.
  apply parse_keywords_iff in Sp.
  assert (Pan : forall failed, resolve_files parses letter number p names w1 files failed (new_ctx kws) = None).
  { intros failed. apply List.in_split in In0 as (a & b & ->). rewrite files_app.
    destruct (resolve_files parses letter number p names w1 a failed (new_ctx kws)) as [[c' f']|]; [|reflexivity].
    cbn [resolve_files]. rewrite (bad_panics parses letter number p names w1 n0 src0 bad0 c' W0); [reflexivity| |exact Gb].
    apply in_or_app. left. exact Ib. }
  destruct R as [why K|kws' K T C|kws' w2 K W G|kws' w2 a n b c failed src bad K W G nms Rf Wn I Bn|kws' w2 files' c n K W G nms Rf F
                |kws' w2 files' c f text r taken K W G nms Rf Mk Sv Wt o].
  - apply kw_none in K. congruence.
  - apply Cr in T. congruence.
  - apply opened_eq in W. subst w2. fold w1 in G. congruence.
  - apply opened_eq in W. subst w2. apply kw_some in K. assert (kws' = kws) by congruence. subst kws'.
    split; [exact St|]. split; [reflexivity|]. split; [reflexivity|]. eexists _, bad, _.
    assert (Nb : ~ go_identifier letter number bad). { intros H. apply good_go in H. congruence. }
    split. { apply in_app_or in I as [I|I]; [exact I|]. exfalso. apply scan_sound in I as [I _]. apply (good_identifier letter number) in I. congruence. }
    split; [exact Nb|]. split; [reflexivity|].
    exact (says_one tr print as_int extra Kv _ _ _ _ reads_unexpected ltac:(among)).
  - exfalso. apply opened_eq in W. subst w2. fold w1 in G, Rf. assert (files' = files) by congruence. subst files'.
    apply kw_some in K. assert (kws' = kws) by congruence. subst kws'. unfold nms in Rf. fold (known p kws) in Rf. fold names in Rf. rewrite Pan in Rf. discriminate.
  - exfalso. apply opened_eq in W. subst w2. fold w1 in G, Rf. assert (files' = files) by congruence. subst files'.
    apply kw_some in K. assert (kws' = kws) by congruence. subst kws'. unfold nms in Rf. fold (known p kws) in Rf. fold names in Rf. rewrite Pan in Rf. discriminate.
Qed.
(** What is said when the template cannot be written: after the warnings, the error
    of the write, or that it was short, or the error of closing the file.  A
    destination that claims to have taken more than it was given is a panic. *)
Theorem C84_saving : forall now args vs w status fs out err kws files, extraction args vs -> main_e now args w status fs out err ->
  let p := asked vs in let names := known p kws in let w1 := opened p w in
  spells (p_keyword p) kws -> (to_file p = true -> creatable (p_output p) = true) -> globs w1 (p_input p) = Some files ->
  (forall n src name, In n files -> w1 n = Some src -> In name (names ++ scan_func_names src) -> good_name letter number name = true) ->
  (forall n, In n files -> ~ fails parses p names w1 n) ->
  exists text rs lines w2 out2, runs isp globs creatable parses letter number now p w ROk w2 out2 /\ produced p w2 out2 text
    /\ told parses p names w1 kws [] files rs /\ Forall2 (notice p names w1 tr read_err parse_err) rs lines
    /\ let (n, e) := written text in
       let ends (m why : bytes) := status = 2%nat /\ exists t, says tr m [why] t /\ err = concat lines ++ t in
       let len := Z.of_nat (length text) in
       (n > len -> ends (B "unexpected error: %+v" ++ [NL]) (B "bytes.Buffer.WriteTo: invalid Write count"))
       /\ (n <= len -> e = true -> ends (B "run error: %v") (write_err text))
       /\ (n < len -> e = false -> ends (B "run error: %v") (B "short write"))
       /\ (n = len -> e = false -> is_file (p_output p) -> closes = false -> ends (B "run error: %v") close_err)
       /\ (n = len -> e = false -> (is_file (p_output p) -> closes = true) -> status = 0%nat /\ err = concat lines).
Proof.
  intros now args vs w status fs out err kws files X M p names w1 Sp Cr Gl Good Fi.
  destruct (main_runs _ _ _ _ _ _ _ _ X M) as (o & err' & why & R & -> & St). fold p in R.
  apply parse_keywords_iff in Sp.
  destruct R as [why K|kws' K T C|kws' w2 K W G|kws' w2 a n b c failed src bad K W G nms Rf Wn I Bn|kws' w2 files' c n K W G nms Rf F
                |kws' w2 files' c f text r taken K W G nms Rf Mk Sv Wt o].
  - apply kw_none in K. congruence.
  - apply Cr in T. congruence.
  - apply opened_eq in W. subst w2. fold w1 in G. congruence.
  - exfalso. apply opened_eq in W. subst w2. fold w1 in G, Wn. assert (files = a ++ n :: b) by congruence. subst files.
    apply kw_some in K. assert (kws' = kws) by congruence. subst kws'.
    assert (Y : good_name letter number bad = true). { apply (Good n src bad); [apply in_or_app; right; left; reflexivity|exact Wn|exact I]. }
    congruence.
  - exfalso. apply opened_eq in W. subst w2. fold w1 in G, Rf. assert (files' = files) by congruence. subst files'.
    apply kw_some in K. assert (kws' = kws) by congruence. subst kws'.
    destruct (run_told _ _ _ _ _ _ _ _ _ _ Rf) as (T & Bd). destruct Bd as [Bd _]. destruct (Bd eq_refl) as (m & Im & Fm). exact (Fi m Im Fm).
  - pose proof W as W0. apply opened_eq in W. subst w2. fold w1 in G, Rf, W0. assert (files' = files) by congruence. subst files'.
    apply kw_some in K. assert (kws' = kws) by congruence. subst kws'.
    destruct (run_told _ _ _ _ _ _ _ _ _ _ Rf) as (T & Bd).
    exists text, (c_err c), (map (report_text tr print as_int extra (file_err tr print as_int extra read_err parse_err p nms w1)) (c_err c)).
    exists (if to_file p then fs_set w1 (p_output p) text else w1), (if to_file p then [] else text).
    split; [eapply R_done; eassumption|].
    split. { unfold produced. pose proof (to_file_iff p) as J. destruct (to_file p).
      - left. split; [apply J; reflexivity|]. unfold fs_set. rewrite beq_refl. reflexivity.
      - right. split; [|reflexivity]. intros Y. apply J in Y. discriminate. }
    split; [exact T|]. split; [exact (told_notices _ _ _ _ Kv _ _ _ _ _ _ _ _ _ _ T)|].
    assert (Ne : text <> []).
    { destruct Sv as (l & (Pl & _) & ->). destruct l as [|x l].
      - exfalso. apply Permutation_nil in Pl. destruct Mk as (es & _ & ->).
        assert (Hne : forall es g, f_entries g <> [] -> f_entries (fold_left add_entry es g) <> []).
        { clear. induction es as [|x es IH]; intros g H; cbn [fold_left]; [exact H|]. apply IH. rewrite FileFacts.add_entry_entries.
          destruct (f_entries g) as [|[k v] m]; [congruence|]. cbn [mput]. destruct (beq _ _); discriminate. }
        apply (Hne es (add_entry new_file (header_entry now p (c_has_plural c)))); [rewrite FileFacts.add_entry_entries; discriminate|].
        unfold vals in Pl. destruct (f_entries _); [reflexivity|discriminate].
      - cbn [map concat]. intros Y. apply app_eq_nil in Y as [Y _]. unfold pot_entry in Y.
        repeat (apply app_eq_nil in Y as [_ Y]). discriminate. }
    assert (E : write_to written text = let (n, e) := written text in
       if n >? Z.of_nat (length text) then (SPanic, text)
       else (if e then SErr else if n =? Z.of_nat (length text) then SNil else SErr, firstn (Z.to_nat n) text)).
    { destruct text; [congruence|reflexivity]. }
    rewrite E in Wt. clear E. destruct (written text) as [n e] eqn:Wr. cbv zeta.
    assert (J := to_file_iff p).
    assert (Sun := fun x => says_one tr print as_int extra Kv _ _ _ x reads_unexpected ltac:(among)).
    assert (Srun := fun x => says_one tr print as_int extra Kv _ _ _ x reads_run_error ltac:(among)).
    split; [|split; [|split; [|split]]].
    + intros Gt. assert (Gb : (n >? Z.of_nat (length text)) = true) by lia. rewrite Gb in Wt. injection Wt as <- <-.
      split; [exact St|]. eexists. split; [exact (Sun _)|reflexivity].
    + intros Le ->. assert (Gb : (n >? Z.of_nat (length text)) = false) by lia. rewrite Gb in Wt. injection Wt as <- <-.
      split; [exact St|]. eexists. split; [exact (Srun _)|]. unfold o. cbn [XtErrModel.save_err]. rewrite Wr. reflexivity.
    + intros Lt ->. assert (Gb : (n >? Z.of_nat (length text)) = false) by lia. rewrite Gb in Wt.
      assert (Gc : (n =? Z.of_nat (length text)) = false) by lia. rewrite Gc in Wt. injection Wt as <- <-.
      split; [exact St|]. eexists. split; [exact (Srun _)|]. unfold o. cbn [XtErrModel.save_err]. rewrite Wr. reflexivity.
    + intros -> -> Fl Cl. rewrite Z.gtb_ltb, Z.ltb_irrefl, Z.eqb_refl in Wt. injection Wt as <- <-.
      apply J in Fl. unfold o in *. rewrite Fl, Cl in *. cbn [andb negb] in *.
      split; [exact St|]. eexists. split; [exact (Srun _)|reflexivity].
    + intros -> -> Fl. rewrite Z.gtb_ltb, Z.ltb_irrefl, Z.eqb_refl in Wt. injection Wt as <- <-.
      assert (Q : to_file p && negb closes = false). { destruct (to_file p); [rewrite Fl by (apply J; reflexivity)|]; reflexivity. }
      unfold o in *. rewrite Q in *. split; [exact St|]. unfold XtErrModel.last_words. rewrite app_nil_r. reflexivity.
Qed.
End Speaks.
Print Assumptions C84_names.
Print Assumptions C84_saving.
Print Assumptions C82_warnings.
Print Assumptions C83_files.
Print Assumptions C83_explained.
Print Assumptions C83_same.
Print Assumptions C84_keywords_partial.
Print Assumptions C84_output_partial.
Print Assumptions C84_stopped.
Print Assumptions C84_pattern.

(** *** Samples: messages in English, files a, b and c of which b may be missing and c may be no template *)
Definition s_tr : bytes -> bytes := fun m => m.
Definition s_print : spec -> arg (list bytes) -> bytes := fun _ _ => [].
Definition s_int : arg (list bytes) -> option Z := fun _ => None.
Definition s_extra : list (arg (list bytes)) -> bytes := fun _ => [].
Definition s_open (n : bytes) : bytes := B "open " ++ n ++ B ": is a directory".
Definition s_read (n : bytes) : bytes := B "open " ++ n ++ B ": permission denied".
Definition s_parse : list bytes -> bytes -> bytes -> bytes -> bytes := fun _ _ _ _ => B "template: :1: unclosed action".
Definition s_globs : fs -> bytes -> option (list bytes) := fun _ pat => if beq pat (B "[") then None else Some [B "a"; B "b"; B "c"].
Definition s_creatable : bytes -> bool := fun n => negb (beq n (B "/")).
Definition s_parses : list bytes -> bytes -> bytes -> bytes -> option (list tnode) := fun _ _ _ src =>
  if beq src (B "{{A}}") then Some [TAction 1 [[AIdent (B "T"); AStr (B "x")]]]
  else if beq src (B "{{B}}") then Some [TAction 2 [[AIdent (B "N"); AStr (B "x"); AStr (B "xs")]]]
  else None.
Definition s_letter (r : N) : bool := ((65 <=? r) && (r <=? 90))%N.
Definition s_fs (b c : option bytes) : fs := fun n => if beq n (B "a") then Some (B "{{A}}") else if beq n (B "b") then b else if beq n (B "c") then c else None.
Definition s_written : bytes -> Z * bool := fun b => (Z.of_nat (length b), false).
Definition s_given (i k o : string) : list (bytes * value) := [(B "i", VText (B i)); (B "k", VText (B k)); (B "o", VText (B o))].
Definition s_args (i k o : string) : list bytes := [B "-i"; B i; B "-k"; B k; B "-o"; B o].
Notation s_main := (main_e s_letter s_tr s_print s_int s_extra s_open s_read s_parse s_open [] s_globs s_creatable s_parses s_letter s_letter s_written true (B "dev") None [] (fun _ => [])).
Lemma s_command i k o : command (s_given i k o) (s_args i k o).
Proof.
  exists (s_args i k o), []. split; [symmetry; apply app_nil_r|]. split; [|constructor].
  unfold s_given, s_args.
  assert (P : forall name v vs l, In name text_flags -> gives_flags vs l -> gives_flags ((name, VText v) :: vs) ((B "-" ++ name) :: v :: l)).
  { intros name v vs l I G. apply (Gi_flag name (VText v) [B "-" ++ name; v]); [|exact G]. apply Sp_next; [left; reflexivity|exact I]. }
  apply (P (B "i")); [cbn; auto|]. apply (P (B "k")); [cbn; auto 10|]. apply (P (B "o")); [cbn; auto 10|]. constructor.
Qed.
Lemma s_extraction i k o : trim_space (B i) <> [] -> trim_space (B k) <> [] -> extraction (s_args i k o) (s_given i k o).
Proof. intros Hi Hk. repeat split; [apply s_command|exact Hi|exact Hk]. Qed.
Definition s_kws : list keyword := [kw (B "T") 0 1 0; kw (B "N") 0 1 2].
Example C82_example : sound s_tr /\ extraction (s_args "*" "T;N:1,2" "-") (s_given "*" "T;N:1,2" "-")
  /\ exists fs out err, s_main [] (s_args "*" "T;N:1,2" "-") (s_fs (Some (B "{{B}}")) (Some (B "{{A}}"))) 0%nat fs out err
     /\ err = B "Warning: msgid 'x' is used without plural and with plural." ++ NL :: B "Line    =[#: b:2]" ++ NL :: B "Previous=[#: a:1]" ++ [NL].
Proof.
  split; [apply sound_id|]. split; [apply s_extraction; vm_compute; discriminate|].
  pose (w := s_fs (Some (B "{{B}}")) (Some (B "{{A}}"))). pose (p := asked (s_given "*" "T;N:1,2" "-")).
  pose (c := match resolve_files s_parses s_letter s_letter p (known p s_kws) w [B "a"; B "b"; B "c"] false (new_ctx s_kws) with Some (c, _) => c | None => new_ctx [] end).
  pose (f := fold_left add_entry (vals (c_entries c)) (add_entry new_file (header_entry [] p (c_has_plural c)))).
  destruct (proj2 (saves_exist s_letter f)) as (text & Sv).
  eexists _, _, _. split.
  - eapply ME_run with (x := meant (s_given "*" "T;N:1,2" "-")) (o := ROk) (why := []).
    + exact (parse_meant _ _ (s_command _ _ _)).
    + reflexivity.
    + reflexivity.
    + reflexivity.
    + vm_compute; reflexivity.
    + change (to_param (meant (s_given "*" "T;N:1,2" "-"))) with p.
      eapply E_write with (kws := s_kws) (w1 := w) (files := [B "a"; B "b"; B "c"]) (c := c) (f := f) (text := text) (r := SNil) (taken := text).
      * vm_compute; reflexivity.
      * right. split; reflexivity.
      * reflexivity.
      * vm_compute; reflexivity.
      * eexists. split; [apply Permutation_refl|reflexivity].
      * exact Sv.
      * destruct text as [|x text]; [reflexivity|]. unfold write_to, s_written. rewrite Z.gtb_ltb, Z.ltb_irrefl, Z.eqb_refl.
        rewrite Znat.Nat2Z.id, firstn_all. reflexivity.
  - vm_compute. reflexivity.
Qed.
Example C83_example : sound s_tr /\ extraction (s_args "*" "T;N:1,2" "-") (s_given "*" "T;N:1,2" "-")
  /\ exists fs err, s_main [] (s_args "*" "T;N:1,2" "-") (s_fs None (Some (B "{{"))) 2%nat fs [] err
     /\ err = B "failed to process file b. error message: failed to read file b: open b: permission denied" ++ NL ::
              B "failed to process file c. error message: failed to parse file c: template: :1: unclosed action" ++ NL ::
              B "run error: failed to read file b: open b: permission denied".
Proof.
  split; [apply sound_id|]. split; [apply s_extraction; vm_compute; discriminate|].
  pose (w := s_fs None (Some (B "{{"))). pose (p := asked (s_given "*" "T;N:1,2" "-")).
  pose (c := match resolve_files s_parses s_letter s_letter p (known p s_kws) w [B "a"; B "b"; B "c"] false (new_ctx s_kws) with Some (c, _) => c | None => new_ctx [] end).
  eexists _, _. split.
  - eapply ME_run with (x := meant (s_given "*" "T;N:1,2" "-")) (o := RFail).
    + exact (parse_meant _ _ (s_command _ _ _)).
    + reflexivity.
    + reflexivity.
    + reflexivity.
    + vm_compute; reflexivity.
    + change (to_param (meant (s_given "*" "T;N:1,2" "-"))) with p.
      eapply E_file with (kws := s_kws) (w1 := w) (files := [B "a"; B "b"; B "c"]) (c := c) (n := B "b").
      * vm_compute; reflexivity.
      * right. split; reflexivity.
      * reflexivity.
      * vm_compute; reflexivity.
      * vm_compute; reflexivity.
  - vm_compute. reflexivity.
Qed.
(** errors about the parameters *)
Lemma s_keywords k why : trim_space (B k) <> [] -> parse_keywords_e s_letter s_tr s_print s_int s_extra (B k) = inr why ->
  s_main [] (s_args "*" k "-") (s_fs None None) 2%nat (s_fs None None) [] (B "run error: " ++ why).
Proof.
  intros Hk K. pose (x := meant (s_given "*" k "-")).
  assert (E : B "run error: " ++ why = [] ++ last_words s_tr s_print s_int s_extra RFail why).
  { cbn [app last_words]. symmetry. unfold s_tr. rewrite (errorf_reads s_print s_int s_extra _ _ [VStr why] reads_run_error); [|repeat constructor|reflexivity].
    cbn [map shown fill]. rewrite app_nil_r. reflexivity. }
  rewrite E. eapply ME_run with (x := x) (o := RFail).
  - exact (parse_meant _ _ (s_command _ _ _)).
  - reflexivity.
  - reflexivity.
  - reflexivity.
  - unfold blank_text. change (fl_k x) with (B k). destruct (trim_space (B k)); [congruence|]. vm_compute. reflexivity.
  - apply E_keywords. exact K.
Qed.
Example C84_example : s_main [] (s_args "*" "T:1;X:1d,2" "-") (s_fs None None) 2%nat (s_fs None None) []
  (B "run error: invalid keywords: T:1;X:1d,2msg id index is not a number: 1d: strconv.ParseInt: parsing " ++ """"%char :: B "1d" ++ """"%char :: B ": invalid syntax").
Proof.
  change (s_main [] (s_args "*" "T:1;X:1d,2" "-") (s_fs None None) 2%nat (s_fs None None) []
    (B "run error: " ++ (B "invalid keywords: T:1;X:1d,2msg id index is not a number: 1d: strconv.ParseInt: parsing " ++ """"%char :: B "1d" ++ """"%char :: B ": invalid syntax"))).
  apply s_keywords; [vm_compute; discriminate|vm_compute; reflexivity].
Qed.
Example C84_names_example : let vs := s_given "*" "T;1x" "-" in let w := s_fs (Some (B "{{B}}")) None in
  extraction (s_args "*" "T;1x" "-") vs /\ spells (p_keyword (asked vs)) [kw (B "T") 0 1 0; kw (B "1x") 0 1 0]
  /\ to_file (asked vs) = false /\ s_globs (opened (asked vs) w) (p_input (asked vs)) = Some [B "a"; B "b"; B "c"]
  /\ opened (asked vs) w (B "b") = Some (B "{{B}}")
  /\ In (B "1x") (known (asked vs) [kw (B "T") 0 1 0; kw (B "1x") 0 1 0]) /\ good_name s_letter s_letter (B "1x") = false.
Proof.
  cbv zeta. split; [apply s_extraction; vm_compute; discriminate|]. split; [apply parse_keywords_iff; vm_compute; reflexivity|].
  split; [reflexivity|]. split; [reflexivity|]. split; [reflexivity|]. split; [right; left; reflexivity|reflexivity].
Qed.
(** a full device, and a file that cannot be closed *)
Example C84_saving_example : let vs := s_given "*" "T;N:1,2" "out" in let p := asked vs in let w := s_fs (Some (B "{{B}}")) (Some (B "{{A}}")) in
  extraction (s_args "*" "T;N:1,2" "out") vs /\ spells (p_keyword p) s_kws /\ s_creatable (p_output p) = true /\ is_file (p_output p)
  /\ s_globs (opened p w) (p_input p) = Some [B "a"; B "b"; B "c"]
  /\ (forall n, In n [B "a"; B "b"; B "c"] -> ~ fails s_parses p (known p s_kws) (opened p w) n)
  /\ (forall n src name, In n [B "a"; B "b"; B "c"] -> opened p w n = Some src -> In name (known p s_kws ++ scan_func_names src) ->
        good_name s_letter s_letter name = true).
Proof.
  cbv zeta. split; [apply s_extraction; vm_compute; discriminate|]. split; [apply parse_keywords_iff; vm_compute; reflexivity|].
  split; [reflexivity|]. split; [split; discriminate|]. split; [reflexivity|]. split.
  - intros n [<-|[<-|[<-|[]]]] [F|(src & F & P)]; try discriminate; vm_compute in F; injection F as <-; vm_compute in P; discriminate.
  - intros n src name [<-|[<-|[<-|[]]]] W I; vm_compute in W; injection W as <-; vm_compute in I;
      repeat (destruct I as [<-|I]; [vm_compute; reflexivity|]); destruct I.
Qed.
(** the message quotes the specification *)
Theorem C84_quoted_partial : forall isp tr print as_int extra open_err read_err parse_err write_err close_err globs creatable parses letter number written closes version info usage complaint
    now args vs w status fs out err, sound tr -> extraction args vs ->
  main_e isp tr print as_int extra open_err read_err parse_err write_err close_err globs creatable parses letter number written closes version info usage complaint now args w status fs out err ->
  (forall kws, ~ spells (p_keyword (asked vs)) kws) -> ~ In "%"%char (p_keyword (asked vs)) ->
  exists a b, err = a ++ p_keyword (asked vs) ++ b.
Proof.
  intros isp tr print as_int extra open_err read_err parse_err write_err close_err globs creatable parses letter number written closes version info usage complaint
    now args vs w status fs out err Kv X M Ns Np.
  destruct (C84_keywords_partial _ _ _ _ _ _ _ _ _ _ _ _ _ _ _ _ _ _ _ _ _ Kv _ _ _ _ _ _ _ _ X M Ns Np) as (_ & _ & _ & why & K & Sy).
  assert (One : forall m x text, says tr m [x] text -> exists a b, text = a ++ x ++ b).
  { intros m x text (ts & _ & L & ->). destruct ts as [|a [|b [|c ts]]]; try discriminate L. exists a, b. reflexivity. }
  destruct (One _ _ _ Sy) as (a & b & ->). destruct K as (ts & t & us & ks & d & cause & head & detail & _ & _ & _ & _ & Sh & _ & Ct).
  destruct (One _ _ _ Sh) as (a' & b' & ->).
  assert (Q : exists c, why = a' ++ p_keyword (asked vs) ++ c).
  { destruct cause as [s|].
    - destruct Ct as (n & _ & ->). unfold because. destruct ((a' ++ p_keyword (asked vs) ++ b') ++ detail) as [|y r] eqn:E.
      + destruct a'; [|discriminate]. destruct (p_keyword (asked vs)); [|discriminate]. exists n. reflexivity.
      + rewrite <- E. exists (b' ++ detail ++ B ": " ++ n). rewrite <- !app_assoc. reflexivity.
    - rewrite Ct. exists (b' ++ detail). rewrite <- !app_assoc. reflexivity. }
  destruct Q as (c & ->). exists (a ++ a'), (c ++ b). rewrite <- !app_assoc. reflexivity.
Qed.
Print Assumptions C84_quoted_partial.
(** not with a percent sign in it: the message becomes a format *)
Fixpoint occurs (x s : bytes) : bool := has_prefix x s || match s with [] => false | _ :: s' => occurs x s' end.
Theorem C84_percent_refuted : exists isp tr print as_int extra open_err read_err parse_err write_err close_err globs creatable parses letter number written closes version info usage complaint
    now args vs w status fs out err, sound tr /\ extraction args vs
  /\ main_e isp tr print as_int extra open_err read_err parse_err write_err close_err globs creatable parses letter number written closes version info usage complaint now args w status fs out err
  /\ (forall kws, ~ spells (p_keyword (asked vs)) kws) /\ forall a b, err <> a ++ p_keyword (asked vs) ++ b.
Proof.
  pose (why := match parse_keywords_e s_letter s_tr s_print s_int s_extra (B "T:%d") with inr t => t | inl _ => [] end).
  exists s_letter, s_tr, s_print, s_int, s_extra, s_open, s_read, s_parse, s_open, [], s_globs, s_creatable, s_parses, s_letter, s_letter, s_written, true, (B "dev"), None, [], (fun _ => []).
  exists [], (s_args "*" "T:%d" "-"), (s_given "*" "T:%d" "-"), (s_fs None None), 2%nat, (s_fs None None), [], (B "run error: " ++ why).
  split; [apply sound_id|]. split; [apply s_extraction; vm_compute; discriminate|].
  split; [apply s_keywords; [vm_compute; discriminate|vm_compute; reflexivity]|].
  split.
  - intros kws H. apply parse_keywords_iff in H. vm_compute in H. discriminate.
  - intros a b E. assert (O : forall x a b, occurs x (a ++ x ++ b) = true).
    { clear. intros x a b. induction a as [|c a IH]; cbn [app occurs].
      - pose proof (has_prefix_app x b) as H. destruct (x ++ b); cbn [occurs]; rewrite H; reflexivity.
      - rewrite IH. apply orb_true_r. }
    pose proof (O (p_keyword (asked (s_given "*" "T:%d" "-"))) a b) as Q. rewrite <- E in Q. vm_compute in Q. discriminate.
Qed.
Print Assumptions C84_percent_refuted.
Example C84_output_example : s_main [] (s_args "*" "T" "/") (s_fs None None) 2%nat (s_fs None None) []
  (B "run error: can not open output file: /: open /: is a directory").
Proof.
  change (B "run error: can not open output file: /: open /: is a directory")
    with ([] ++ last_words s_tr s_print s_int s_extra RFail (wrapf s_print s_int s_extra (s_open (B "/")) (tr_f s_tr s_print s_int s_extra (B "can not open output file: %s") [VStr (B "/")]) [])).
  eapply ME_run with (x := meant (s_given "*" "T" "/")) (o := RFail).
  - exact (parse_meant _ _ (s_command _ _ _)).
  - reflexivity.
  - reflexivity.
  - reflexivity.
  - vm_compute; reflexivity.
  - eapply E_open with (kws := [kw (B "T") 0 1 0]); vm_compute; reflexivity.
Qed.
Example C84_pattern_example : s_main [] (s_args "[" "T" "-") (s_fs None None) 2%nat (s_fs None None) []
  (B "run error: invalid input pattern: syntax error in pattern").
Proof.
  change (B "run error: invalid input pattern: syntax error in pattern")
    with ([] ++ last_words s_tr s_print s_int s_extra RFail (wrapf s_print s_int s_extra (B "syntax error in pattern") (s_tr (B "invalid input pattern")) [])).
  eapply ME_run with (x := meant (s_given "[" "T" "-")) (o := RFail).
  - exact (parse_meant _ _ (s_command _ _ _)).
  - reflexivity.
  - reflexivity.
  - reflexivity.
  - vm_compute; reflexivity.
  - eapply E_glob with (kws := [kw (B "T") 0 1 0]).
    + vm_compute; reflexivity.
    + right. split; reflexivity.
    + reflexivity.
Qed.
