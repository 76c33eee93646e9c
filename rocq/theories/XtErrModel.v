(** What the command xtemplate writes to standard error, and the errors of
    /repo/cmd/xtemplate/internal/{keyword,param,run}.go, without debug mode
    (in which errors are printed with stack traces: XtDebugModel).
    The library github.com/cockroachdb/errors is not part of the code under
    study: Errorf is modelled as fmt.Sprintf, Wrapf as the message, a colon and the
    text of the cause; its redaction markers are not modelled. *)
From Coq Require Import List ZArith NArith Bool Ascii.
From Verif Require Import GoStr GoQuote GoMap FileModel PoModel XtModel WriteModel MainModel.
From Verif Require Import GoFmt.
Import ListNotations.
Local Open Scope Z_scope.

(** ** strconv.ParseInt(s, 10, 64) with its errors *)
(* used at keyword.go:56-111 *)
Inductive num_error := Syntax | Range.
(** the loop of strconv.ParseUint for base 10: a digit behind a number that is
    too large is a range error even if something else follows *)
(* used by strconv.ParseInt at keyword.go:56-111 *)
Fixpoint parse_uint (n : N) (s : bytes) : N + num_error :=
  match s with
  | [] => inl n
  | c :: t =>
      if is_digit c then
        if (1844674407370955162 <=? n)%N then inr Range
        else
          let n1 := (n * 10 + (code c - 48))%N in
          if (18446744073709551615 <? n1)%N then inr Range else parse_uint n1 t
      else inr Syntax
  end.
(* used at keyword.go:56-111 *)
Definition parse_int_e (s : bytes) : Z + num_error :=
  match s with
  | [] => inr Syntax
  | c :: t =>
      let neg := Ascii.eqb c "-" in
      match (if neg || Ascii.eqb c "+" then t else s) with
      | [] => inr Syntax
      | body =>
          match parse_uint 0 body with
          | inr e => inr e
          | inl n =>
              if negb neg && (9223372036854775808 <=? n)%N then inr Range
              else if neg && (9223372036854775808 <? n)%N then inr Range
              else inl (if neg then - Z.of_N n else Z.of_N n)
          end
      end
  end.

Section Messages.
Variable isp : N -> bool.
(** t.T without arguments: the message in the language of the user *)
Variable tr : bytes -> bytes.
(** the renderings of package fmt not described here *)
Variable print : spec -> arg (list bytes) -> bytes.
Variable as_int : arg (list bytes) -> option Z.
Variable extra : list (arg (list bytes)) -> bytes.
(** a string and a []string under %v, %+v and %s; errors are represented by their texts *)
(* used at run.go:64, 289, param.go:86, main.go:40, 50 *)
Definition vprint (d : spec) (v : arg (list bytes)) : bytes :=
  match sp_wid d, sp_prec d with
  | None, None =>
      if (beq (sp_flags d) [] || beq (sp_flags d) (B "+")) && (sp_verb d =? 118)%N || beq (sp_flags d) [] && (sp_verb d =? 115)%N then
        match v with
        | VStr s => s
        | VOther l => B "[" ++ join [SP] l ++ B "]"
        | VInt _ => print d v
        end
      else print d v
  | _, _ => print d v
  end.
(* errors.Errorf of keyword.go:36, 42, 48, 96, 117 and param.go:85; fmt.Fprintf of run.go:81 and main.go:40, 50 *)
Definition errorf (format : bytes) (args : list (arg (list bytes))) : bytes := sprintf vprint as_int extra format args.
(* errors.Wrapf of keyword.go:58-113, 131 and run.go:56, 93, 110 *)
Definition wrapf (cause format : bytes) (args : list (arg (list bytes))) : bytes :=
  match errorf format args with
  | [] => cause
  | m => m ++ B ": " ++ cause
  end.
(** t.T with arguments: the translation, formatted by f.Format *)
(* used at keyword.go:24-117, 131 *)
Definition tr_f (format : bytes) (args : list (arg (list bytes))) : bytes := format_f vprint as_int extra (tr format) args.
(** *strconv.NumError: its text *)
(* used at keyword.go:56-111 *)
Definition num_text (s : bytes) (e : num_error) : bytes :=
  B "strconv.ParseInt: parsing " ++ quote isp s ++ B ": "
  ++ match e with Syntax => B "invalid syntax" | Range => B "value out of range" end.

(** ** Keywords *)
(** the error of keyword.go:58, 69, 75, 81, 87, 101, 107, 113 *)
Definition wrap_num (msg detail s : bytes) (e : num_error) : bytes := wrapf (num_text s e) (msg ++ detail) [].
(** keyword.go:50-118; [inr]: the text of the error *)
Definition parse_positions_e (msg name text : bytes) : keyword + bytes :=
  match map trim_space (split_byte "," text) with
  | [a] =>
      match parse_int_e a with
      | inl i => inl (kw name 0 i 0)
      | inr e => inr (wrap_num msg (tr (B "msg id index is not a number")) a e)
      end
  | [a; b] =>
      if has_suffix (B "c") a then
        let c := removelast a in
        match parse_int_e c with
        | inr e => inr (wrap_num msg (tr_f (B "context index is not a number: %v") [VStr c]) c e)
        | inl ci =>
            match parse_int_e b with
            | inr e => inr (wrap_num msg (tr_f (B "msg id index is not a number: %v") [VStr b]) b e)
            | inl i => inl (kw name ci i 0)
            end
        end
      else
        match parse_int_e a with
        | inr e => inr (wrap_num msg (tr_f (B "msg id index is not a number: %v") [VStr a]) a e)
        | inl i =>
            match parse_int_e b with
            | inr e => inr (wrap_num msg (tr_f (B "msg plural index is not a number: %v") [VStr b]) b e)
            | inl j => inl (kw name 0 i j)
            end
        end
  | [a; b; d] =>
      if has_suffix (B "c") a then
        let c := removelast a in
        match parse_int_e c with
        | inr e => inr (wrap_num msg (tr_f (B "msg context index is not a number: %v") [VStr c]) c e)
        | inl ci =>
            match parse_int_e b with
            | inr e => inr (wrap_num msg (tr_f (B "msg id index is not a number: %v") [VStr b]) b e)
            | inl i =>
                match parse_int_e d with
                | inr e => inr (wrap_num msg (tr_f (B "msg id index is not a number: %v") [VStr d]) d e)
                | inl j => inl (kw name ci i j)
                end
            end
        end
      else inr (errorf (msg ++ tr_f (B "context index must end with 'c': %v") [VStr a]) [])
  | _ => inr (errorf (msg ++ tr (B "too much keyword index")) [])
  end.
(** keyword.go:25-119, the body of the loop *)
Definition parse_keyword_e (msg key : bytes) : keyword + bytes :=
  match split_byte ":" (trim_space key) with
  | [n] => let name := trim_space n in if is_empty name then inr (errorf msg []) else inl (kw name 0 1 0)
  | [n; index] => let name := trim_space n in if is_empty name then inr (errorf msg []) else parse_positions_e msg name index
  | _ => inr (errorf msg [])
  end.
(** keyword.go:25-121 *)
Fixpoint parse_each_e (msg : bytes) (keys : list bytes) : list keyword + bytes :=
  match keys with
  | [] => inl []
  | key :: r =>
      match parse_keyword_e msg key with
      | inl k => match parse_each_e msg r with inl ks => inl (k :: ks) | inr e => inr e end
      | inr e => inr e
      end
  end.
(** keyword.go:22-122 *)
Definition parse_keywords_e (str : bytes) : list keyword + bytes :=
  parse_each_e (tr_f (B "invalid keywords: %s") [VStr str]) (split_byte ";" str).

(** ** Running *)
(** The texts of the errors of other packages: opening the output
    (os.OpenFile), reading a file (os.ReadFile), parsing a template, writing and closing
    the output. *)
Variable open_err read_err : bytes -> bytes.
Variable parse_err : list bytes -> bytes -> bytes -> bytes -> bytes.
Variable write_err : bytes -> bytes.
Variable close_err : bytes.
Variable globs : fs -> bytes -> option (list bytes).
Variable creatable : bytes -> bool.
Variable parses : list bytes -> bytes -> bytes -> bytes -> option (list tnode).
Variable letter number : N -> bool.
Variable written : bytes -> Z * bool.
Variable closes : bool.
(** run.go:86-111: the error of a file that cannot be processed *)
Definition file_err (p : param) (names : list bytes) (w : fs) (name : bytes) : bytes :=
  match w name with
  | None => wrapf (read_err name) (tr (B "failed to read file %v")) [VStr name]
  | Some src => wrapf (parse_err (names ++ scan_func_names src) (p_left p) (p_right p) src) (tr (B "failed to parse file %v")) [VStr name]
  end.
(** run.go:80-82 *)
Definition print_err (format : bytes) (args : list (arg (list bytes))) : bytes := errorf (format ++ [NL]) args.
(** what a report looks like: run.go:63-65 and run.go:284-290 with param.go:85-86;
    [why]: the errors of the files *)
Definition report_text (why : bytes -> bytes) (r : report) : bytes :=
  match r with
  | Conflict e pre =>
      print_err (tr (B "Warning: %v"))
        [VStr (errorf (tr (B "msgid '%v' is used without plural and with plural." ++ NL :: B "Line    =%v" ++ NL :: B "Previous=%v"))
                 [VStr (e_id e); VOther (e_cmts e); VOther (e_cmts pre)])]
  | Failed n => print_err (tr (B "failed to process file %v. error message: %v")) [VStr n; VStr (why n)]
  end.
(** the first file that failed *)
(* run.go:66-73 *)
Fixpoint first_failed (rs : list report) : option bytes :=
  match rs with
  | [] => None
  | Failed n :: _ => Some n
  | _ :: r => first_failed r
  end.
(** the error of bytes.Buffer.WriteTo and of Close: param.go:98-111, run.go:46-51 *)
Definition save_err (text : bytes) (r : saved) : bytes :=
  match r with
  | SNil => close_err
  | SErr => if snd (written text) then write_err text else B "short write"
  | SPanic => B "bytes.Buffer.WriteTo: invalid Write count"
  end.
(** run.go:40-78 once more, with everything printed on standard error meanwhile
    ([err]) and the text of the error returned or the value of the panic ([why]).
    A panic: [Funcs] rejects one of the names that are not identifiers;
    which one depends on the iteration order of a map. *)
Inductive runs_e (now : bytes) (p : param) (w : fs) : outcome -> fs -> bytes -> bytes -> bytes -> Prop :=
| E_keywords why : parse_keywords_e (p_keyword p) = inr why -> runs_e now p w RFail w [] [] why
| E_open kws : parse_keywords_e (p_keyword p) = inl kws -> to_file p = true -> creatable (p_output p) = false ->
    runs_e now p w RFail w [] [] (wrapf (open_err (p_output p)) (tr_f (B "can not open output file: %s") [VStr (p_output p)]) [])
| E_glob kws w1 : parse_keywords_e (p_keyword p) = inl kws ->
    (to_file p = true /\ creatable (p_output p) = true /\ w1 = fs_set w (p_output p) [] \/ to_file p = false /\ w1 = w) ->
    globs w1 (p_input p) = None ->
    runs_e now p w RFail w1 [] [] (wrapf (B "syntax error in pattern") (tr (B "invalid input pattern")) [])
| E_panic kws w1 a n b c failed src bad : parse_keywords_e (p_keyword p) = inl kws ->
    (to_file p = true /\ creatable (p_output p) = true /\ w1 = fs_set w (p_output p) [] \/ to_file p = false /\ w1 = w) ->
    globs w1 (p_input p) = Some (a ++ n :: b) ->
    let names := map k_name kws ++ function_names (p_function p) in
    resolve_files parses letter number p names w1 a false (new_ctx kws) = Some (c, failed) ->
    w1 n = Some src -> In bad (names ++ scan_func_names src) -> good_name letter number bad = false ->
    runs_e now p w RPanic w1 [] (concat (map (report_text (file_err p names w1)) (c_err c)))
      (B "function name " ++ quote isp bad ++ B " is not a valid identifier")
| E_file kws w1 files c n : parse_keywords_e (p_keyword p) = inl kws ->
    (to_file p = true /\ creatable (p_output p) = true /\ w1 = fs_set w (p_output p) [] \/ to_file p = false /\ w1 = w) ->
    globs w1 (p_input p) = Some files ->
    let names := map k_name kws ++ function_names (p_function p) in
    resolve_files parses letter number p names w1 files false (new_ctx kws) = Some (c, true) -> first_failed (c_err c) = Some n ->
    runs_e now p w RFail w1 [] (concat (map (report_text (file_err p names w1)) (c_err c))) (file_err p names w1 n)
| E_write kws w1 files c f text r taken : parse_keywords_e (p_keyword p) = inl kws ->
    (to_file p = true /\ creatable (p_output p) = true /\ w1 = fs_set w (p_output p) [] \/ to_file p = false /\ w1 = w) ->
    globs w1 (p_input p) = Some files ->
    let names := map k_name kws ++ function_names (p_function p) in
    resolve_files parses letter number p names w1 files false (new_ctx kws) = Some (c, false) ->
    makes_pot now p c f -> saves_pot isp f text -> write_to written text = (r, taken) ->
    let o := match r with SNil => if to_file p && negb closes then RFail else ROk | SErr => RFail | SPanic => RPanic end in
    runs_e now p w o (if to_file p then fs_set w1 (p_output p) taken else w1) (if to_file p then [] else taken)
      (concat (map (report_text (file_err p names w1)) (c_err c)))
      (match o with ROk => [] | _ => save_err text r end).

(** ** main.go:37-55, 78-105.  [usage]: the usage text (main.go:70-77); [complaint]: what
    package flag says about bad arguments. *)
Variable version : bytes.
Variable info : option (bytes * list (bytes * bytes)).
Variable usage : bytes.
Variable complaint : list bytes -> bytes.
(** main.go:38-43, 47-54: what is printed last *)
Definition last_words (o : outcome) (why : bytes) : bytes :=
  match o with
  | ROk => []
  | RFail => errorf (tr (B "run error: %v")) [VStr why]
  | RPanic => errorf (tr (B "unexpected error: %+v" ++ [NL])) [VStr why]
  end.
(** the exit status, the file system, standard output and standard error *)
Inductive main_e (now : bytes) (args : list bytes) (w : fs) : nat -> fs -> bytes -> bytes -> Prop :=
| ME_bad : parse_flags args default_flags = PBad -> main_e now args w 2 w [] (complaint args ++ usage)
| ME_help : parse_flags args default_flags = PHelp -> main_e now args w 0 w [] usage
| ME_version x : parse_flags args default_flags = PFlags x -> fl_v x = true ->
    main_e now args w 0 w (version_text (version_string version info)) []
| ME_usage x : parse_flags args default_flags = PFlags x -> fl_v x = false -> fl_h x = true -> main_e now args w 0 w [] usage
| ME_required x : parse_flags args default_flags = PFlags x -> fl_v x = false -> fl_h x = false ->
    blank_text (fl_i x) || blank_text (fl_k x) = true ->
    main_e now args w 2 w [] (usage ++ tr (B "flags -i and -k are required") ++ [NL])
| ME_run x o w' out err why : parse_flags args default_flags = PFlags x -> fl_v x = false -> fl_h x = false -> fl_d x = false ->
    blank_text (fl_i x) || blank_text (fl_k x) = false ->
    runs_e now (to_param x) w o w' out err why ->
    main_e now args w (match o with ROk => 0 | RFail | RPanic => 2 end) w' out (err ++ last_words o why).
End Messages.
