(** Debug mode of xtemplate (flag -d): what param.go:27-31 prints on standard output while the
    templates are searched, and how errors are printed on standard error.  The functions of
    XtModel and XtErrModel are written down once more with the lines they print. *)
From Coq Require Import List ZArith NArith Bool Ascii.
From Verif Require Import GoStr GoQuote GoMap FileModel PoModel XtModel WriteModel MainModel XtErrModel.
From Verif Require Import GoFmt.
Import ListNotations.
Local Open Scope Z_scope.

(** ** The lines *)
(** one line per call of debugPrint.  [DTemplate], [DCmd] and [DArg] also show the name of the
    template, the position in the file and the node, which the trees of XtModel do not have. *)
(* run.go:41, 54, 75, 87, 120, 181, 184, 195, 203, 262, 271 and 325-351 *)
Inductive dline :=
| DParam (p : param)
| DGlob (files : option (list bytes))
| DFile (name : bytes)
| DTemplate (file : bytes)
| DNilPipe (line : Z)
| DPipe (line : Z)
| DCmd (line : Z)
| DArg
| DFew (name : bytes)
| DNoString (name : bytes) (i : nat)
| DNoCtxt (name : bytes)
| DNoId (name : bytes)
| DNoPlural (name : bytes)
| DOk (name : bytes) (e : entry)
| DDone (n : nat).
(** a boolean and a []string under %v *)
(* param.go:29 *)
Definition show_bool (b : bool) : bytes := if b then B "true" else B "false".
(* how fmt prints a []string, param.go:29 and run.go:53 *)
Definition show_list (l : list bytes) : bytes := B "[" ++ join [SP] l ++ B "]".
(** a *Param and a *Entry under %+v *)
(* run.go:41 with param.go:16-24 *)
Definition show_param (p : param) : bytes :=
  B "&{Input:" ++ p_input p ++ B " Left:" ++ p_left p ++ B " Right:" ++ p_right p ++ B " Keyword:" ++ p_keyword p
  ++ B " Function:" ++ p_function p ++ B " OutputFile:" ++ p_output p ++ B " Debug:" ++ show_bool true ++ B "}".
(* run.go:351 with translator/entry.go:10-18 *)
Definition show_entry (e : entry) : bytes :=
  B "&{MsgCmts:" ++ show_list (e_cmts e) ++ B " MsgCtxt:" ++ e_ctxt e ++ B " MsgID:" ++ e_id e ++ B " IsPlural:" ++ show_bool (e_plural e)
  ++ B " MsgID2:" ++ e_id2 e ++ B " MsgStr:" ++ e_str e ++ B " MsgStrN:" ++ show_list (e_strn e) ++ B "}".
(* the text before and after the name at run.go:262, 271, 325, 333, 342 *)
Definition about (name what : bytes) : bytes := B "  >  >  >  ID=" ++ name ++ what.
(** the text of a line: what is not modelled may be any text *)
(* param.go:27-31 *)
Inductive line_text : dline -> bytes -> Prop :=
| LT_param p : line_text (DParam p) (B "run param=" ++ show_param p ++ [NL])
| LT_glob files : line_text (DGlob (Some files)) (B "Glob files=" ++ show_list files ++ B " err=<nil>" ++ [NL])
| LT_bad_glob : line_text (DGlob None) (B "Glob files=" ++ show_list [] ++ B " err=syntax error in pattern" ++ [NL])
| LT_file n : line_text (DFile n) (B "resolve one file: filename=" ++ n ++ [NL])
| LT_template n name : line_text (DTemplate n) (B "process template: [filename=" ++ n ++ B "] [template name=" ++ name ++ B "]" ++ [NL])
| LT_nil_pipe l : line_text (DNilPipe l) (B "  > line " ++ dec_Z l ++ B ": Pipe is nil" ++ [NL])
| LT_pipe l : line_text (DPipe l) (B "  >  Pipe: Line=" ++ dec_Z l ++ [NL])
| LT_cmd l pos : line_text (DCmd l) (B "  >  >  Cmd: Line=" ++ dec_Z l ++ B " Pos=" ++ dec_Z pos ++ [NL])
| LT_arg text : line_text DArg (B "  >  >  >  Cmd.Arg: " ++ text ++ [NL])
| LT_few n : line_text (DFew n) (about n (B " too few args" ++ [NL]))
| LT_no_string n i : line_text (DNoString n i) (about n (B " args[" ++ dec_Z (Z.of_nat i) ++ B "] is not string node" ++ [NL]))
| LT_no_ctxt n : line_text (DNoCtxt n) (about n (B " missing ctxt" ++ [NL]))
| LT_no_id n : line_text (DNoId n) (about n (B " missing msg id" ++ [NL]))
| LT_no_plural n : line_text (DNoPlural n) (about n (B " missing msg plural" ++ [NL]))
| LT_ok n e : line_text (DOk n e)
    (encode_rune 12304 ++ B "ok" ++ encode_rune 12305 ++ B "  >  >  ID=" ++ n ++ B " entry=" ++ show_entry e ++ [NL])
| LT_done n : line_text (DDone n) (B "extract done, " ++ dec_Z (Z.of_nat n) ++ B " entries" ++ [NL]).
(* param.go:27-31, called again and again *)
Inductive log_text : list dline -> bytes -> Prop :=
| LX_nil : log_text [] []
| LX_cons d ds t ts : line_text d t -> log_text ds ts -> log_text (d :: ds) (t ++ ts).

(** ** Functions that print *)
(** a function on the context that prints *)
(* the functions of run.go:86-353 with a *Context *)
Definition step := ctx -> ctx * list dline.
(* a statement without effect *)
Definition nop : step := fun c => (c, []).
(* param.go:27-31 *)
Definition log (d : dline) : step := fun c => (c, [d]).
(* a statement that prints nothing in debug mode *)
Definition act (f : ctx -> ctx) : step := fun c => (f c, []).
(* two statements *)
Definition andthen (a b : step) : step := fun c => let (c1, l1) := a c in let (c2, l2) := b c1 in (c2, l1 ++ l2).
(* a loop over a slice *)
Definition each {X} (f : X -> step) : list X -> step :=
  fix loop (l : list X) : step := match l with [] => nop | x :: r => andthen (f x) (loop r) end.

(** ** Extraction *)
(** run.go:319-353 and then run.go:284-290 *)
Definition extract_d (line name : bytes) (k : keyword) (texts : list bytes) : step :=
  match (if k_ctxt k >? 0 then pos_text texts (k_ctxt k) else Some []) with
  | None => log (DNoCtxt name)
  | Some c =>
      match pos_text texts (k_id k) with
      | None => log (DNoId name)
      | Some i =>
          match (if k_id2 k >? 0 then pos_text texts (k_id2 k) else Some []) with
          | None => log (DNoPlural name)
          | Some i2 =>
              let e := {| e_cmts := [B "#: " ++ line]; e_ctxt := c; e_id := i; e_plural := k_id2 k >? 0;
                          e_id2 := i2; e_str := []; e_strn := [] |} in
              let e := if is_go_format e then
                         {| e_cmts := [B "#: " ++ line; B "#, go-format"]; e_ctxt := c; e_id := i; e_plural := k_id2 k >? 0;
                            e_id2 := i2; e_str := []; e_strn := [] |}
                       else e in
              andthen (log (DOk name e)) (act (fun c => ctx_add c e))
          end
      end
  end.
(** run.go:267-276: the literals at the first [n] of [args], or the index of one that is
    none; [i]: the index of the first *)
Fixpoint literals_d (i n : nat) (args : list anode) : list bytes + nat :=
  match n with
  | O => inl []
  | S n' =>
      match args with
      | [] => inr i
      | a :: r =>
          match string_literal a with
          | None => inr i
          | Some s => match literals_d (S i) n' r with inl l => inl (s :: l) | inr j => inr j end
          end
      end
  end.
(** run.go:252-292, the body of the loop *)
Definition filter_one_d (line name : bytes) (index : nat) (args : list anode) (k : keyword) : step :=
  if beq (k_name k) name then
    if (length args <=? arg_count k + index)%nat then log (DFew name)
    else
      match literals_d (S index) (arg_count k) (skipn (S index) args) with
      | inr i => log (DNoString name i)
      | inl texts => extract_d line name k texts
      end
  else nop.
(** run.go:249-293 *)
Definition filter_kw_d (line name : bytes) (index : nat) (args : list anode) : step :=
  fun c => each (filter_one_d line name index args) (c_kws c) c.
(* run.go:208-225 *)
Definition filter_id_d (line : bytes) (ids : list bytes) (index : nat) (args : list anode) : step :=
  match last_id ids with Some name => filter_kw_d line name index args | None => nop end.
(** run.go:201-227, the inner loop of resolveCmds *)
Definition args_loop_d (g : nat -> anode -> step) : nat -> list anode -> step :=
  fix loop (i : nat) (l : list anode) : step :=
    match l with
    | [] => nop
    | x :: r => andthen (log DArg) (andthen (g i x) (loop (S i) r))
    end.
(** run.go:190-228, the outer loop.  [piped]: what the previous command contributes;
    [visit]: the iteration of the inner loop for it *)
Definition cmds_loop_d (line : Z) (g : list anode -> nat -> anode -> step) : list anode -> (list anode -> nat -> step) -> list (list anode) -> step :=
  fix loop (piped : list anode) (visit : list anode -> nat -> step) (l : list (list anode)) : step :=
    match l with
    | [] => nop
    | cmd :: r =>
        let full := cmd ++ piped in
        andthen (log (DCmd line))
          (andthen (args_loop_d (g full) 0 cmd)
             (andthen (visit full (length cmd))
                (loop (piped_arg (Some cmd))
                   (fun full i => match cmd with
                                  | [a] => match string_literal a with Some _ => andthen (log DArg) (g full i a) | None => nop end
                                  | _ => nop
                                  end) r)))
    end.
(** run.go:204-226, the body of the inner loop, with resolvePipe (run.go:179-186)
    and resolveCmds (run.go:189-229) for a nested pipeline *)
Fixpoint resolve_arg_d (file : bytes) (line : Z) (args : list anode) (i : nat) (a : anode) {struct a} : step :=
  let at_line := file ++ B ":" ++ dec_Z line in
  match a with
  | AIdent n => filter_kw_d at_line n i args
  | AField ids => filter_id_d at_line ids i args
  | AVar ids => filter_id_d at_line ids i args
  | AChain _ fields => filter_id_d at_line fields i args
  | APipe cmds => andthen (log (DPipe line)) (cmds_loop_d line (fun full i x => resolve_arg_d file line full i x) [] (fun _ _ => nop) cmds)
  | AStr _ | AOther => nop
  end.
(** run.go:179-186 on a non-nil pipe *)
Definition resolve_pipe_d (file : bytes) (line : Z) (p : pipe) : step := resolve_arg_d file line [] 0 (APipe p).
(** run.go:132-176 *)
Fixpoint resolve_node_d (file : bytes) (t : tnode) : step :=
  match t with
  | TList nodes => each (resolve_node_d file) nodes
  | TAction line p => resolve_pipe_d file line p
  | TIf line p body els | TRange line p body els | TWith line p body els =>
      andthen (resolve_pipe_d file line p)
        (andthen (resolve_node_d file body) match els with Some e => resolve_node_d file e | None => nop end)
  | TTemplate line p => match p with Some p => resolve_pipe_d file line p | None => log (DNilPipe line) end
  | TOther => nop
  end.
(** run.go:119-126; a template without a tree does not come from the parser *)
Definition resolve_tmpl_d (file : bytes) (t : tnode) : step := andthen (log (DTemplate file)) (resolve_node_d file t).

(** ** Running *)
Section Debug.
Variable isp : N -> bool.
Variable tr : bytes -> bytes.
Variable print : spec -> GoFmt.arg (list bytes) -> bytes.
Variable as_int : GoFmt.arg (list bytes) -> option Z.
Variable extra : list (GoFmt.arg (list bytes)) -> bytes.
Variable open_err read_err : bytes -> bytes.
Variable parse_err : list bytes -> bytes -> bytes -> bytes -> bytes.
Variable write_err : bytes -> bytes.
Variable close_err : bytes.
Variable globs : fs -> bytes -> option (list bytes).
Variable creatable : bytes -> bool.
Variable parses : list bytes -> bytes -> bytes -> bytes -> option (list tnode).
Variable letter number : N -> bool.
Variable written : bytes -> Z * bool.
Variable closes : bool.
(** [verbose short long]: an error with text [short] under %v may have the text [long] under
    %+v: with stack traces, which github.com/cockroachdb/errors writes *)
Variable verbose : bytes -> bytes -> Prop.
Notation errorf := (errorf print as_int extra).
Notation print_err := (print_err print as_int extra).
Notation wrapf := (wrapf print as_int extra).
Notation tr_f := (tr_f tr print as_int extra).
Notation file_err := (file_err tr print as_int extra read_err parse_err).
Notation parse_keywords_e := (parse_keywords_e isp tr print as_int extra).
(** run.go:86-117: the result and what was printed *)
Definition resolve_file_d (p : param) (names : list bytes) (w : fs) (name : bytes) (c : ctx) : fres * list dline :=
  match w name with
  | None => (FErr, [DFile name])
  | Some src =>
      let funcs := names ++ scan_func_names src in
      if forallb (good_name letter number) funcs then
        match parses funcs (p_left p) (p_right p) src with
        | None => (FErr, [DFile name])
        | Some trees => let (c, l) := each (resolve_tmpl_d name) trees c in (FOk c, DFile name :: l)
        end
      else (FPanic, [DFile name])
  end.
(** run.go:58-73 *)
Fixpoint resolve_files_d (p : param) (names : list bytes) (w : fs) (files : list bytes) (failed : bool) (c : ctx)
  : option (ctx * bool) * list dline :=
  match files with
  | [] => (Some (c, failed), [])
  | n :: r =>
      match resolve_file_d p names w n c with
      | (FOk c', l) => let (x, m) := resolve_files_d p names w r failed c' in (x, l ++ m)
      | (FErr, l) => let (x, m) := resolve_files_d p names w r true (say c (Failed n)) in (x, l ++ m)
      | (FPanic, l) => (None, l)
      end
  end.
(** run.go:62 and run.go:286 *)
Definition report_text_d (why : bytes -> bytes) (r : report) (text : bytes) : Prop :=
  match r with
  | Conflict e pre => exists long,
      verbose (errorf (tr (B "msgid '%v' is used without plural and with plural." ++ NL :: B "Line    =%v" ++ NL :: B "Previous=%v"))
                 [VStr (e_id e); VOther (e_cmts e); VOther (e_cmts pre)]) long
      /\ text = print_err (tr (B "Warning: %+v")) [VStr long]
  | Failed n => exists long, verbose (why n) long
      /\ text = print_err (tr (B "failed to process file %v. error message: %+v")) [VStr n; VStr long]
  end.
(* run.go:60-65 and run.go:284-290, again and again *)
Inductive reports_text (why : bytes -> bytes) : list report -> bytes -> Prop :=
| RX_nil : reports_text why [] []
| RX_cons r rs t ts : report_text_d why r t -> reports_text why rs ts -> reports_text why (r :: rs) (t ++ ts).
(** run.go:40-78 in debug mode: the outcome, the file system, what was printed by debugPrint,
    what else was printed on standard output, what was printed on standard error, and the
    text of the error returned or the value of the panic *)
Inductive runs_d (now : bytes) (p : param) (w : fs) : outcome -> fs -> list dline -> bytes -> bytes -> bytes -> Prop :=
| D_keywords why : parse_keywords_e (p_keyword p) = inr why -> runs_d now p w RFail w [DParam p] [] [] why
| D_open kws : parse_keywords_e (p_keyword p) = inl kws -> to_file p = true -> creatable (p_output p) = false ->
    runs_d now p w RFail w [DParam p] [] [] (wrapf (open_err (p_output p)) (tr_f (B "can not open output file: %s") [VStr (p_output p)]) [])
| D_glob kws w1 : parse_keywords_e (p_keyword p) = inl kws ->
    (to_file p = true /\ creatable (p_output p) = true /\ w1 = fs_set w (p_output p) [] \/ to_file p = false /\ w1 = w) ->
    globs w1 (p_input p) = None ->
    runs_d now p w RFail w1 [DParam p; DGlob None] [] [] (wrapf (B "syntax error in pattern") (tr (B "invalid input pattern")) [])
| D_panic kws w1 a n b c failed src bad l err : parse_keywords_e (p_keyword p) = inl kws ->
    (to_file p = true /\ creatable (p_output p) = true /\ w1 = fs_set w (p_output p) [] \/ to_file p = false /\ w1 = w) ->
    globs w1 (p_input p) = Some (a ++ n :: b) ->
    let names := map k_name kws ++ function_names (p_function p) in
    resolve_files_d p names w1 a false (new_ctx kws) = (Some (c, failed), l) ->
    w1 n = Some src -> In bad (names ++ scan_func_names src) -> good_name letter number bad = false ->
    reports_text (file_err p names w1) (c_err c) err ->
    runs_d now p w RPanic w1 ([DParam p; DGlob (Some (a ++ n :: b))] ++ l ++ [DFile n]) [] err
      (B "function name " ++ quote isp bad ++ B " is not a valid identifier")
| D_file kws w1 files c n l err : parse_keywords_e (p_keyword p) = inl kws ->
    (to_file p = true /\ creatable (p_output p) = true /\ w1 = fs_set w (p_output p) [] \/ to_file p = false /\ w1 = w) ->
    globs w1 (p_input p) = Some files ->
    let names := map k_name kws ++ function_names (p_function p) in
    resolve_files_d p names w1 files false (new_ctx kws) = (Some (c, true), l) -> first_failed (c_err c) = Some n ->
    reports_text (file_err p names w1) (c_err c) err ->
    runs_d now p w RFail w1 ([DParam p; DGlob (Some files)] ++ l) [] err (file_err p names w1 n)
| D_write kws w1 files c f text r taken l err : parse_keywords_e (p_keyword p) = inl kws ->
    (to_file p = true /\ creatable (p_output p) = true /\ w1 = fs_set w (p_output p) [] \/ to_file p = false /\ w1 = w) ->
    globs w1 (p_input p) = Some files ->
    let names := map k_name kws ++ function_names (p_function p) in
    resolve_files_d p names w1 files false (new_ctx kws) = (Some (c, false), l) ->
    reports_text (file_err p names w1) (c_err c) err ->
    makes_pot now p c f -> saves_pot isp f text -> write_to written text = (r, taken) ->
    let o := match r with SNil => if to_file p && negb closes then RFail else ROk | SErr => RFail | SPanic => RPanic end in
    runs_d now p w o (if to_file p then fs_set w1 (p_output p) taken else w1)
      ([DParam p; DGlob (Some files)] ++ l ++ [DDone (length (c_entries c))]) (if to_file p then [] else taken) err
      (match o with ROk => [] | _ => save_err write_err close_err written text r end).

(** ** main.go:37-55, 78-105, with and without debug mode *)
Variable version : bytes.
Variable info : option (bytes * list (bytes * bytes)).
Variable usage : bytes.
Variable complaint : list bytes -> bytes.
(** main.go:38-43, 47-54 *)
Definition last_words_d (o : outcome) (why text : bytes) : Prop :=
  match o with
  | ROk => text = []
  | RFail => exists long, verbose why long /\ text = errorf (tr (B "run error: %+v")) [VStr long]
  | RPanic => text = errorf (tr (B "unexpected error: %+v" ++ [NL])) [VStr why]
  end.
(** the exit status, the file system, standard output and standard error *)
Inductive main_d (now : bytes) (args : list bytes) (w : fs) : nat -> fs -> bytes -> bytes -> Prop :=
| MD_plain status w' out err :
    main_e isp tr print as_int extra open_err read_err parse_err write_err close_err globs creatable parses letter number written closes
      version info usage complaint now args w status w' out err ->
    main_d now args w status w' out err
| MD_debug x o w' l dbg out err why lw : parse_flags args default_flags = PFlags x -> fl_v x = false -> fl_h x = false -> fl_d x = true ->
    blank_text (fl_i x) || blank_text (fl_k x) = false ->
    runs_d now (to_param x) w o w' l out err why -> log_text l dbg -> last_words_d o why lw ->
    main_d now args w (match o with ROk => 0 | RFail | RPanic => 2 end) w' (dbg ++ out) (err ++ lw).
End Debug.
