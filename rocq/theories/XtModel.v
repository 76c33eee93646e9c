(** Model of /repo/cmd/xtemplate/internal/{keyword,param,run,helper}.go: the
    extraction of messages from Go templates.
    Debug output ([Param.Debug]) is left out here (it is in XtDebugModel); messages on standard error are
    represented by a list of reports, whose texts are in XtErrModel. *)
From Coq Require Import Permutation.
From Verif Require Import GoStr GoMap GoRegex FileModel PoModel.
Local Open Scope Z_scope.

(** ** Keywords: keyword.go:13-18 *)
Record keyword := { k_name : bytes; k_ctxt : Z; k_id : Z; k_id2 : Z }.
(* a composite literal of keyword.go:13-18 *)
Definition kw (n : bytes) (c i i2 : Z) : keyword := {| k_name := n; k_ctxt := c; k_id := i; k_id2 := i2 |}.
(** keyword.go:50-118, the text behind the colon; [int(i)] is the identity on a
    64-bit platform.  [None] is an error. *)
Definition parse_positions (name : bytes) (text : bytes) : option keyword :=
  match map trim_space (split_byte "," text) with
  | [a] => match parse_int a with Some i => Some (kw name 0 i 0) | None => None end
  | [a; b] =>
      if has_suffix (B "c") a then
        match parse_int (removelast a), parse_int b with
        | Some c, Some i => Some (kw name c i 0)
        | _, _ => None
        end
      else
        match parse_int a, parse_int b with
        | Some i, Some j => Some (kw name 0 i j)
        | _, _ => None
        end
  | [a; b; d] =>
      if has_suffix (B "c") a then
        match parse_int (removelast a), parse_int b, parse_int d with
        | Some c, Some i, Some j => Some (kw name c i j)
        | _, _, _ => None
        end
      else None
  | _ => None
  end.
(** keyword.go:25-119, the body of the loop *)
Definition parse_keyword (key : bytes) : option keyword :=
  match split_byte ":" (trim_space key) with
  | [n] => let name := trim_space n in if is_empty name then None else Some (kw name 0 1 0)
  | [n; index] => let name := trim_space n in if is_empty name then None else parse_positions name index
  | _ => None
  end.
(** keyword.go:22-122 *)
Fixpoint parse_each (keys : list bytes) : option (list keyword) :=
  match keys with
  | [] => Some []
  | key :: r =>
      match parse_keyword key with
      | Some k => match parse_each r with Some ks => Some (k :: ks) | None => None end
      | None => None
      end
  end.
(* keyword.go:22-122 *)
Definition parse_keywords (str : bytes) : option (list keyword) := parse_each (split_byte ";" str).

(** ** Template trees (text/template/parse, as far as run.go looks at them).
    A pipeline is the list of its commands, a command the list of its arguments;
    variable declarations are left out.  The nil commands and nil nodes the code
    guards against are never produced by the parser and are left out, except
    the missing pipeline of a template node and the missing else list. *)
(* the types of cmd/xtemplate/internal/run.go:203-220, 298-304 *)
Inductive anode :=
| AIdent (name : bytes)                       (* IdentifierNode *)
| AField (ids : list bytes)                   (* FieldNode *)
| AVar (ids : list bytes)                     (* VariableNode *)
| AChain (inner : anode) (fields : list bytes) (* ChainNode *)
| AStr (text : bytes)                         (* StringNode, unquoted *)
| APipe (cmds : list (list anode))            (* PipeNode *)
| AOther.                                     (* dot, nil, bool, number *)
(* the argument of run.go:179 *)
Definition pipe := list (list anode).
(* the types of run.go:136-170 *)
Inductive tnode :=
| TList (nodes : list tnode)
| TAction (line : Z) (p : pipe)
| TIf (line : Z) (p : pipe) (body : tnode) (els : option tnode)
| TRange (line : Z) (p : pipe) (body : tnode) (els : option tnode)
| TWith (line : Z) (p : pipe) (body : tnode) (els : option tnode)
| TTemplate (line : Z) (p : option pipe)
| TOther.                                     (* text, comment, break, continue *)

(** ** Context: param.go:35-42.  [c_err]: what was printed on standard error
    meanwhile, as reports; their texts are in XtErrModel. *)
(** a report: message [e] contradicts the present [pre] (run.go:284-290); a file
    could not be processed (run.go:60-65) *)
Inductive report := Conflict (e pre : entry) | Failed (name : bytes).
(* param.go:35-42 (without Param, Functions, Output) and what went to standard error *)
Record ctx := { c_kws : list keyword; c_entries : gmap entry; c_has_plural : bool; c_err : list report }.
(* run.go:284-290 and run.go:60-65 *)
Definition say (c : ctx) (r : report) : ctx :=
  {| c_kws := c_kws c; c_entries := c_entries c; c_has_plural := c_has_plural c; c_err := c_err c ++ [r] |}.
(** the entries refused by [Add] *)
(* param.go:84-87 *)
Definition refused (r : report) : list entry := match r with Conflict e _ => [e] | Failed _ => [] end.
(* the entries refused by param.go:84-87 *)
Definition c_rejected (c : ctx) : list entry := flat_map refused (c_err c).
(* param.go:46-50 *)
Definition new_ctx (kws : list keyword) : ctx := {| c_kws := kws; c_entries := []; c_has_plural := false; c_err := [] |}.
(** param.go:79-96; the error is reported by the only caller and then dropped
    (run.go:284-290) *)
Definition ctx_add (c : ctx) (e : entry) : ctx :=
  match mget (e_key e) (c_entries c) with
  | Some pre =>
      if negb (Bool.eqb (e_plural pre) (e_plural e)) then say c (Conflict e pre)
      else
        {| c_kws := c_kws c;
           c_entries := mput (e_key e)
             {| e_cmts := e_cmts pre ++ e_cmts e; e_ctxt := e_ctxt pre; e_id := e_id pre; e_plural := e_plural pre;
                e_id2 := e_id2 pre; e_str := e_str pre; e_strn := e_strn pre |} (c_entries c);
           c_has_plural := c_has_plural c; c_err := c_err c |}
  | None =>
      {| c_kws := c_kws c; c_entries := mput (e_key e) e (c_entries c);
         c_has_plural := c_has_plural c || e_plural e; c_err := c_err c |}
  end.

(** ** Extraction *)
(** helper.go:20-22 *)
Definition is_go_format (e : entry) : bool := contains_byte "%" (e_id e) || contains_byte "%" (e_id2 e).
(** run.go:297-316 *)
Fixpoint string_literal (a : anode) : option bytes :=
  match a with
  | AStr s => Some s
  | APipe [[x]] => string_literal x
  | _ => None
  end.
(** the map m of run.go:266-276: [texts] are the literals at positions 1, 2, ... *)
Definition pos_text (texts : list bytes) (p : Z) : option bytes :=
  if p <=? 0 then None else nth_error texts (Z.to_nat (p - 1)).
(** run.go:319-353 (in Go text the comment is "#: " and the line) *)
Definition extract (line : bytes) (k : keyword) (texts : list bytes) : option entry :=
  match (if k_ctxt k >? 0 then pos_text texts (k_ctxt k) else Some []) with
  | None => None
  | Some c =>
      match pos_text texts (k_id k) with
      | None => None
      | Some i =>
          match (if k_id2 k >? 0 then pos_text texts (k_id2 k) else Some []) with
          | None => None
          | Some i2 =>
              let e := {| e_cmts := [B "#: " ++ line]; e_ctxt := c; e_id := i; e_plural := k_id2 k >? 0;
                          e_id2 := i2; e_str := []; e_strn := [] |} in
              Some (if is_go_format e then
                      {| e_cmts := [B "#: " ++ line; B "#, go-format"]; e_ctxt := c; e_id := i; e_plural := k_id2 k >? 0;
                         e_id2 := i2; e_str := []; e_strn := [] |}
                    else e)
          end
      end
  end.
(** run.go:253-259 *)
Definition arg_count (k : keyword) : nat :=
  1 + (if (k_ctxt k >? 0) && negb (k_ctxt k =? k_id k) then 1 else 0)
    + (if (k_id2 k >? 0) && negb (k_id2 k =? k_id k) && negb (k_id2 k =? k_ctxt k) then 1 else 0).
(** run.go:265-279: the literals at the first [n] of [args], all of which must be literals *)
Fixpoint literals (n : nat) (args : list anode) : option (list bytes) :=
  match n with
  | O => Some []
  | S n' =>
      match args with
      | [] => None
      | a :: r =>
          match string_literal a with
          | None => None
          | Some s => match literals n' r with Some l => Some (s :: l) | None => None end
          end
      end
  end.
(** run.go:249-293; too few arguments is [literals] running out of them *)
Definition filter_one (line name : bytes) (index : nat) (args : list anode) (c : ctx) (k : keyword) : ctx :=
  if beq (k_name k) name then
    match literals (arg_count k) (skipn (S index) args) with
    | None => c
    | Some texts => match extract line k texts with Some e => ctx_add c e | None => c end
    end
  else c.
(* run.go:249-293 *)
Definition filter_kw (line name : bytes) (index : nat) (args : list anode) (c : ctx) : ctx :=
  fold_left (filter_one line name index args) (c_kws c) c.
(** run.go:234-246: what the previous command contributes *)
Definition piped_arg (prev : option (list anode)) : list anode :=
  match prev with
  | Some [a] => match string_literal a with Some _ => [a] | None => [] end
  | _ => []
  end.
(** the last of a list of identifiers, if any *)
(* run.go:209-212, 215-218, 221-224 *)
Definition last_id (ids : list bytes) : option bytes := match rev ids with x :: _ => Some x | [] => None end.
(* run.go:208-225 *)
Definition filter_id (line : bytes) (ids : list bytes) (index : nat) (args : list anode) (c : ctx) : ctx :=
  match last_id ids with Some name => filter_kw line name index args c | None => c end.
(** run.go:200-227, the inner loop of resolveCmds: [g] is the loop body *)
Definition args_loop (g : nat -> anode -> ctx -> ctx) : nat -> list anode -> ctx -> ctx :=
  fix loop (i : nat) (l : list anode) (c : ctx) : ctx :=
    match l with
    | [] => c
    | x :: r => loop (S i) r (g i x c)
    end.
(** run.go:190-199, the outer loop; [g] gets all arguments of the command.
    Simplified: the literal appended by [piped_arg] is not itself visited;
    visiting a literal does nothing (XtFacts.literal_silent). *)
Definition cmds_loop (g : list anode -> nat -> anode -> ctx -> ctx) : option (list anode) -> list (list anode) -> ctx -> ctx :=
  fix loop (prev : option (list anode)) (l : list (list anode)) (c : ctx) : ctx :=
    match l with
    | [] => c
    | cmd :: r => loop (Some cmd) r (args_loop (g (cmd ++ piped_arg prev)) 0 cmd c)
    end.
(** run.go:201-226, the body of the inner loop, with resolvePipe (run.go:179-186)
    and resolveCmds (run.go:189-229) for a nested pipeline *)
Fixpoint resolve_arg (line : bytes) (args : list anode) (i : nat) (a : anode) (c : ctx) {struct a} : ctx :=
  match a with
  | AIdent n => filter_kw line n i args c
  | AField ids => filter_id line ids i args c
  | AVar ids => filter_id line ids i args c
  | AChain _ fields => filter_id line fields i args c
  | APipe cmds => cmds_loop (fun full i x c => resolve_arg line full i x c) None cmds c
  | AStr _ | AOther => c
  end.
(** run.go:179-186 on a non-nil pipe *)
Definition resolve_pipe (file : bytes) (line : Z) (p : pipe) (c : ctx) : ctx :=
  resolve_arg (file ++ B ":" ++ dec_Z line) [] 0 (APipe p) c.
(** run.go:132-176 *)
Fixpoint resolve_node (file : bytes) (t : tnode) (c : ctx) : ctx :=
  match t with
  | TList nodes => fold_left (fun c n => resolve_node file n c) nodes c
  | TAction line p => resolve_pipe file line p c
  | TIf line p body els | TRange line p body els | TWith line p body els =>
      let c := resolve_node file body (resolve_pipe file line p c) in
      match els with Some e => resolve_node file e c | None => c end
  | TTemplate line p => match p with Some p => resolve_pipe file line p c | None => c end
  | TOther => c
  end.

(** ** Function names *)
(** run.go:19-22 *)
Definition template_builtins : list bytes :=
  [B "if"; B "else"; B "end"; B "range"; B "with"; B "template"; B "define"; B "block"; B "break"; B "continue"].
(* run.go:26, the first character *)
Definition re_alpha (c : ascii) : bool := in_range 97 122 c || in_range 65 90 c || Ascii.eqb c "_".
(* run.go:26, \w *)
Definition re_word (c : ascii) : bool := re_alpha c || is_digit c.
(** run.go:26, the pattern of [identPattern] *)
Definition re_ident : list item := [IOne re_alpha; IStar true re_word].
(** run.go:29-37; a set as a list *)
Definition scan_func_names (src : bytes) : list bytes :=
  filter (fun n => negb (existsb (beq n) template_builtins)) (map (@concat ascii) (find_all false re_ident src)).
(** param.go:65-74: the names given by the function parameter *)
Definition function_names (functions : bytes) : list bytes :=
  match functions with
  | [] => []
  | _ => filter (fun n => negb (is_empty n)) (map trim_space (split_byte "," functions))
  end.

(** ** Output *)
(** param.go:16-24 *)
Record param := { p_input : bytes; p_left : bytes; p_right : bytes; p_keyword : bytes; p_function : bytes; p_output : bytes }.
(** param.go:123-158; [now]: the formatted time *)
Definition header_cmts : list bytes :=
  [B "# SOME DESCRIPTIVE TITLE."; B "# Copyright (C) YEAR THE PACKAGE'S COPYRIGHT HOLDER";
   B "# This file is distributed under the same license as the PACKAGE package.";
   B "# FIRST AUTHOR <EMAIL@ADDRESS>, YEAR."; B "#"; B "#, fuzzy"].
(* param.go:133-155 *)
Definition header_lines (now : bytes) (p : param) (has_plural : bool) : list bytes :=
  [B "Project-Id-Version: PACKAGE VERSION"; B "Report-Msgid-Bugs-To: "; B "POT-Creation-Date: " ++ now;
   B "PO-Revision-Date: YEAR-MO-DA HO:MI+ZONE"; B "Last-Translator: FULL NAME <EMAIL@ADDRESS>";
   B "Language-Team: LANGUAGE <LL@li.org>"; B "Language: "; B "MIME-Version: 1.0";
   B "Content-Type: text/plain; charset=CHARSET"; B "Content-Transfer-Encoding: 8bit";
   B "X-Created-By: xtemplate(https://github.com/youthlin/t/tree/main/cmd/xtemplate)"]
  ++ (if has_plural then [B "Plural-Forms: nplurals=INTEGER; plural=EXPRESSION;"] else [])
  ++ [B "X-Xtemplate-Input: " ++ p_input p; B "X-Xtemplate-Left: " ++ p_left p; B "X-Xtemplate-Right: " ++ p_right p;
      B "X-Xtemplate-Keywords: " ++ p_keyword p; B "X-Xtemplate-Functions: " ++ p_function p;
      B "X-Xtemplate-Output: " ++ p_output p; []].
(* param.go:123-158 *)
Definition header_entry (now : bytes) (p : param) (has_plural : bool) : entry :=
  {| e_cmts := header_cmts; e_ctxt := []; e_id := []; e_plural := false; e_id2 := [];
     e_str := join [NL] (header_lines now p has_plural); e_strn := [] |}.
(** param.go:113-120: [f] is a possible result; the map is ranged over in any order *)
Definition makes_pot (now : bytes) (p : param) (c : ctx) (f : file) : Prop :=
  exists l, Permutation l (vals (c_entries c))
    /\ f = fold_left add_entry l (add_entry new_file (header_entry now p (c_has_plural c))).

(** ** Running.  The file system maps names to contents.  Parameters: [globs]
    is filepath.Glob ([None]: bad pattern), [creatable] tells whether a file can
    be opened for writing, [parses] is the template parser: function names,
    delimiters and source to the trees of all templates, in the order in which
    tmpl.Templates() happens to return them.  [letter] and [number] are
    unicode.IsLetter and unicode.IsDigit above ASCII. *)
(* what run.go:53, 91 read and keyword.go:129 writes *)
Definition fs := bytes -> option bytes.
(* keyword.go:129 with param.go:101 *)
Definition fs_set (w : fs) (name text : bytes) : fs := fun n => if beq n name then Some text else w n.
Section Run.
Variable isp : N -> bool.
Variable globs : fs -> bytes -> option (list bytes).
Variable creatable : bytes -> bool.
Variable parses : list bytes -> bytes -> bytes -> bytes -> option (list tnode).
Variable letter number : N -> bool.
(* used by Funcs at run.go:107 *)
Definition is_letter (r : N) : bool :=
  if (r <? 128)%N then ((97 <=? r)%N && (r <=? 122)%N) || ((65 <=? r)%N && (r <=? 90)%N) else letter r.
(* used by Funcs at run.go:107 *)
Definition is_number (r : N) : bool := if (r <? 128)%N then (48 <=? r)%N && (r <=? 57)%N else number r.
(** goodName of text/template/funcs.go *)
(* used by Funcs at run.go:107 *)
Fixpoint good_rest (fuel : nat) (s : bytes) : bool :=
  match fuel, s with
  | _, [] => true
  | O, _ => false
  | S f, _ =>
      let (r, w) := decode_rune s in
      ((r =? 95)%N || is_letter r || is_number r) && good_rest f (skipn w s)
  end.
(* used by Funcs at run.go:107 *)
Definition good_name (s : bytes) : bool :=
  match s with
  | [] => false
  | _ => let (r, w) := decode_rune s in ((r =? 95)%N || is_letter r) && good_rest (length s) (skipn w s)
  end.

(* the outcomes of run.go:86-117 *)
Inductive fres := FOk (c : ctx) | FErr | FPanic.
(** run.go:86-127; [names]: the keys of ctx.Functions.  [FPanic]: [Funcs]
    panics on a name that is not an identifier. *)
Definition resolve_file (p : param) (names : list bytes) (w : fs) (name : bytes) (c : ctx) : fres :=
  match w name with
  | None => FErr
  | Some src =>
      let funcs := names ++ scan_func_names src in
      if forallb good_name funcs then
        match parses funcs (p_left p) (p_right p) src with
        | None => FErr
        | Some trees => FOk (fold_left (fun c t => resolve_node name t c) trees c)
        end
      else FPanic
  end.
(** run.go:58-73: the context, and whether some file failed; [None]: panic *)
Fixpoint resolve_files (p : param) (names : list bytes) (w : fs) (files : list bytes) (failed : bool) (c : ctx) : option (ctx * bool) :=
  match files with
  | [] => Some (c, failed)
  | n :: r =>
      match resolve_file p names w n c with
      | FOk c' => resolve_files p names w r failed c'
      | FErr => resolve_files p names w r true (say c (Failed n))
      | FPanic => None
      end
  end.
(* the end of run.go:40-78: nil, an error, a panic *)
Inductive outcome := ROk | RFail | RPanic.
(** keyword.go:126-135 and param.go:45-76: is the output a file? *)
Definition to_file (p : param) : bool := negb (is_empty (p_output p)) && negb (beq (p_output p) (B "-")).
(** run.go:40-78: one run from file system [w] may end with an outcome, the file
    system [w'] and the text [out] on standard output.  Errors while writing and
    closing are not modelled. *)
Inductive runs (now : bytes) (p : param) (w : fs) : outcome -> fs -> bytes -> Prop :=
| R_keywords : parse_keywords (p_keyword p) = None -> runs now p w RFail w []
| R_open kws : parse_keywords (p_keyword p) = Some kws -> to_file p = true -> creatable (p_output p) = false ->
    runs now p w RFail w []
| R_glob kws w1 : parse_keywords (p_keyword p) = Some kws ->
    (to_file p = true /\ creatable (p_output p) = true /\ w1 = fs_set w (p_output p) [] \/ to_file p = false /\ w1 = w) ->
    globs w1 (p_input p) = None -> runs now p w RFail w1 []
| R_panic kws w1 files : parse_keywords (p_keyword p) = Some kws ->
    (to_file p = true /\ creatable (p_output p) = true /\ w1 = fs_set w (p_output p) [] \/ to_file p = false /\ w1 = w) ->
    globs w1 (p_input p) = Some files ->
    resolve_files p (map k_name kws ++ function_names (p_function p)) w1 files false (new_ctx kws) = None ->
    runs now p w RPanic w1 []
| R_file kws w1 files c : parse_keywords (p_keyword p) = Some kws ->
    (to_file p = true /\ creatable (p_output p) = true /\ w1 = fs_set w (p_output p) [] \/ to_file p = false /\ w1 = w) ->
    globs w1 (p_input p) = Some files ->
    resolve_files p (map k_name kws ++ function_names (p_function p)) w1 files false (new_ctx kws) = Some (c, true) ->
    runs now p w RFail w1 []
| R_done kws w1 files c f out : parse_keywords (p_keyword p) = Some kws ->
    (to_file p = true /\ creatable (p_output p) = true /\ w1 = fs_set w (p_output p) [] \/ to_file p = false /\ w1 = w) ->
    globs w1 (p_input p) = Some files ->
    resolve_files p (map k_name kws ++ function_names (p_function p)) w1 files false (new_ctx kws) = Some (c, false) ->
    makes_pot now p c f -> saves_pot isp f out ->
    runs now p w ROk (if to_file p then fs_set w1 (p_output p) out else w1) (if to_file p then [] else out).
End Run.
