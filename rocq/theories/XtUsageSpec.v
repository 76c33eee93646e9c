(** Specification of what xtemplate says about its command line. *)
From Coq Require Import List NArith Bool Ascii.
From Verif Require Import GoStr GoQuote MainModel MainSpec XtErrSpec.
Import ListNotations.

(** the usage text; [head]: its first lines, [word]: the explanation of each flag *)
Definition TAB : bytes := [ascii_of_nat 9].
Definition usage_lines (head : bytes) (word : bytes -> bytes) : list bytes :=
  [head;
   B "  -d" ++ TAB ++ word (B "debug mode") ++ [NL];
   B "  -f string" ++ [NL] ++ B "    " ++ TAB ++ word (B "function names of template") ++ [NL];
   B "  -h" ++ TAB ++ word (B "show help message") ++ [NL];
   B "  -i string" ++ [NL] ++ B "    " ++ TAB ++ word (B "input file pattern") ++ [NL];
   B "  -k string" ++ [NL] ++ B "    " ++ TAB ++ word (B "keywords e.g.: gettext;T:1;N:1,2;X:1c,2;XN:1c,2,3") ++ [NL];
   B "  -left string" ++ [NL] ++ B "    " ++ TAB ++ word (B "left delim") ++ B " (default ""{{"")" ++ [NL];
   B "  -o string" ++ [NL] ++ B "    " ++ TAB ++ word (B "output file, - is stdout") ++ [NL];
   B "  -right string" ++ [NL] ++ B "    " ++ TAB ++ word (B "right delim") ++ B " (default ""}}"")" ++ [NL];
   B "  -v" ++ TAB ++ word (B "show version") ++ [NL]].
Definition usage_head : bytes :=
  B "Usage of %s:" ++ [NL] ++ B "xtemplate -i input-pattern -k keywords [-f functions] [-o output]" ++ [NL].
Definition explanations : list bytes :=
  [B "debug mode"; B "function names of template"; B "show help message"; B "input file pattern";
   B "keywords e.g.: gettext;T:1;N:1,2;X:1c,2;XN:1c,2,3"; B "left delim"; B "output file, - is stdout"; B "right delim"; B "show version"].
(** a language in which the usage text can be given: explanations of one line without back quotes *)
Definition one_line (s : bytes) : Prop := ~ In NL s /\ ~ In "`"%char s.
Definition explains_flags (tr : bytes -> bytes) : Prop := keeps tr usage_head /\ forall m, In m explanations -> one_line (tr m).
(** the first argument that is no flag of the program, behind flags that are fine, and what is said about it *)
Inductive first_wrong (isp : N -> bool) : list bytes -> bytes -> Prop :=
| FW_syntax vs a x l : gives_flags vs a -> (exists r, x = B "-=" ++ r \/ x = B "--=" ++ r \/ x = B "---" ++ r) ->
    first_wrong isp (a ++ x :: l) (B "bad flag syntax: " ++ x)
| FW_unknown vs a d c name e l : gives_flags vs a -> In d dashes -> c <> "-"%char -> c <> "="%char -> ~ In "="%char name ->
    (e = [] \/ exists v, e = B "=" ++ v) -> ~ In (c :: name) (B "help" :: text_flags ++ bool_flags) ->
    first_wrong isp (a ++ (d ++ (c :: name) ++ e) :: l) (B "flag provided but not defined: -" ++ c :: name)
| FW_bool vs a d name v l : gives_flags vs a -> In d dashes -> In name bool_flags -> ~ In v truths -> ~ In v falsehoods ->
    first_wrong isp (a ++ (d ++ name ++ B "=" ++ v) :: l) (B "invalid boolean value " ++ quote isp v ++ B " for -" ++ name ++ B ": parse error")
| FW_missing vs a d name : gives_flags vs a -> In d dashes -> In name text_flags ->
    first_wrong isp (a ++ [d ++ name]) (B "flag needs an argument: -" ++ name).
