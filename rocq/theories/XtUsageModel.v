(** What the command xtemplate says about its command line: the usage text of
    /repo/cmd/xtemplate/main.go:59-77 and the errors of package flag. *)
From Coq Require Import List ZArith NArith Bool Ascii.
From Verif Require Import GoStr GoQuote XtModel WriteModel MainModel XtErrModel.
From Verif Require Import GoFmt.
Import ListNotations.

(** strings.ReplaceAll(s, "\n", "\n    \t") *)
(* used by flag.PrintDefaults at main.go:76 *)
Fixpoint indent (s : bytes) : bytes :=
  match s with
  | [] => []
  | c :: r => if Ascii.eqb c NL then NL :: B "    " ++ ascii_of_nat 9 :: indent r else c :: indent r
  end.
(** the text up to the first back quote and what follows it *)
(* used by flag.UnquoteUsage at main.go:76 *)
Fixpoint cut_tick (s : bytes) : option (bytes * bytes) :=
  match s with
  | [] => None
  | c :: r => if Ascii.eqb c "`" then Some ([], r) else match cut_tick r with Some (a, b) => Some (c :: a, b) | None => None end
  end.
(** flag.UnquoteUsage: the name of the value and the text without back quotes *)
(* used by flag.PrintDefaults at main.go:76 *)
Definition unquote_usage (kind text : bytes) : bytes * bytes :=
  match cut_tick text with
  | Some (a, r) => match cut_tick r with Some (name, b) => (name, a ++ name ++ b) | None => (kind, text) end
  | None => (kind, text)
  end.
Section Usage.
Variable isp : N -> bool.
Variable tr : bytes -> bytes.
Variable print : spec -> GoFmt.arg (list bytes) -> bytes.
Variable as_int : GoFmt.arg (list bytes) -> option Z.
Variable extra : list (GoFmt.arg (list bytes)) -> bytes.
(** one flag in flag.PrintDefaults; [kind]: "string", or nothing for a boolean; a default that is
    not empty is printed (the booleans have none) *)
(* called at main.go:76 *)
Definition flag_line (name kind text default : bytes) : bytes :=
  let (value, usage) := unquote_usage kind text in
  let b := B "  -" ++ name ++ match value with [] => [] | _ => B " " ++ value end in
  b ++ (if (length b <=? 4)%nat then [ascii_of_nat 9] else NL :: B "    " ++ [ascii_of_nat 9]) ++ indent usage
  ++ match default with [] => [] | _ => B " (default " ++ quote isp default ++ B ")" end ++ [NL].
(** main.go:60-68, by name as VisitAll goes *)
Definition defaults_text : bytes :=
  flag_line (B "d") [] (tr (B "debug mode")) []
  ++ flag_line (B "f") (B "string") (tr (B "function names of template")) []
  ++ flag_line (B "h") [] (tr (B "show help message")) []
  ++ flag_line (B "i") (B "string") (tr (B "input file pattern")) []
  ++ flag_line (B "k") (B "string") (tr (B "keywords e.g.: gettext;T:1;N:1,2;X:1c,2;XN:1c,2,3")) []
  ++ flag_line (B "left") (B "string") (tr (B "left delim")) (B "{{")
  ++ flag_line (B "o") (B "string") (tr (B "output file, - is stdout")) []
  ++ flag_line (B "right") (B "string") (tr (B "right delim")) (B "}}")
  ++ flag_line (B "v") [] (tr (B "show version")) [].
(** main.go:70-77; [prog]: os.Args[0] *)
Definition usage_text (prog : bytes) : bytes :=
  errorf print as_int extra
    (tr (B "Usage of %s:" ++ NL :: B "xtemplate -i input-pattern -k keywords [-f functions] [-o output]" ++ [NL])) [VStr prog]
  ++ defaults_text.
(** the errors of FlagSet.parseOne, and flag.boolValue.Set *)
(* called at main.go:78 *)
Fixpoint flag_error (args : list bytes) : bytes :=
  match args with
  | [] => []
  | s :: rest =>
      match read_arg s with
      | NoFlag | EndFlags => []
      | BadFlag => B "bad flag syntax: " ++ s
      | Flag name value =>
          match lookup name with
          | None => B "flag provided but not defined: -" ++ name
          | Some (FBool _) =>
              match parse_bool (match value with Some v => v | None => B "true" end) with
              | Some _ => flag_error rest
              | None => B "invalid boolean value " ++ quote isp (match value with Some v => v | None => B "true" end)
                        ++ B " for -" ++ name ++ B ": parse error"
              end
          | Some (FString _) =>
              match value with
              | Some _ => flag_error rest
              | None => match rest with _ :: rest' => flag_error rest' | [] => B "flag needs an argument: -" ++ name end
              end
          end
      end
  end.
(** what FlagSet.failf prints before the usage text *)
(* called at main.go:78 *)
Definition complaint_text (args : list bytes) : bytes := flag_error args ++ [NL].
End Usage.
