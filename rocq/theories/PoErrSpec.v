(** What the error of a rejected .po file says.  Independent of the reader. *)
From Verif Require Import GoStr GoFmt ErrModel ErrSpec BlankSpec LitSpec.
Local Open Scope Z_scope.

(** the lines of a content: between the line feeds, without the carriage returns *)
Definition has_lines (content : bytes) (ls : list bytes) : Prop :=
  ls <> [] /\ (forall l, In l ls -> ~ In NL l)
  /\ join [NL] ls = filter (fun c => negb (Ascii.eqb c CR)) content.

(** The errors that exist before: plain ones, all different, older than [next];
    fmt prints an error with its text. *)
Definition plain_error (e : err) (msg : bytes) : Prop := exists i, e = Err i msg (fun _ => false) [].
Record settings {A} (print : spec -> arg (val A) -> bytes) (empty_po invalid_entry eof syntax : err) (next : nat) : Prop := {
  s_print : forall e, print (plain 119) (VOther (VErr e)) = e_msg e;
  s_empty : plain_error empty_po (B "empty po file");
  s_invalid : plain_error invalid_entry (B "invalid entry");
  s_eof : plain_error eof (B "EOF");
  s_syntax : plain_error syntax (B "invalid syntax");
  s_differ : NoDup (map e_ident [empty_po; invalid_entry; eof; syntax]);
  s_older : forall e, In e [empty_po; invalid_entry; eof; syntax] -> (e_ident e < next)%nat
}.

(** [not_string r]: [r] without the white space around it is no string *)
Definition not_string (r : bytes) : Prop := forall q t, trims r q -> ~ literal q t.
Definition keywords : list bytes := [B "msgctxt"; B "msgid_plural"; B "msgid"; B "msgstr"].
(** the name of the field the lines are in, as the error of a continuation line
    gives it: the one of the last line with a keyword; none behind a comment *)
Inductive in_field : list bytes -> bytes -> Prop :=
| IF_start : in_field [] []
| IF_comment pre r : in_field (pre ++ ["#"%char :: r]) []
| IF_ctxt pre r : in_field (pre ++ [B "msgctxt" ++ SP :: r]) (B "ctxt")
| IF_keyword pre k r : In k [B "msgid_plural"; B "msgid"; B "msgstr"] -> in_field (pre ++ [k ++ SP :: r]) k
| IF_form pre r : in_field (pre ++ [B "msgstr[" ++ r]) (B "msgstr[]")
| IF_more pre l f : in_field pre f -> blanks l \/ (exists r, l = DQ :: r) -> in_field (pre ++ [l]) f.
(** the complaint about the line [l] with the number [n] in the field [f], and
    whether its cause is a text that is no string *)
Inductive complaint (n : N) (f l : bytes) : bytes -> bool -> Prop :=
| CP_field k r : In k keywords -> l = k ++ SP :: r -> not_string r ->
    complaint n f l (B "unquote " ++ k ++ B " failed|line " ++ dec n ++ B ": " ++ l ++ B ": invalid syntax") true
| CP_form i r : l = B "msgstr[" ++ dec i ++ B "] " ++ r -> not_string r ->
    complaint n f l (B "unquote msgstr[" ++ dec i ++ B "]  failed|line " ++ dec n ++ B ": " ++ l ++ B ": invalid syntax") true
| CP_more : (exists r, l = DQ :: r) -> not_string l ->
    complaint n f l (B "unquote " ++ f ++ B " failed|line " ++ dec n ++ B ": " ++ l ++ B ": invalid syntax") true
| CP_other : ~ blanks l -> (forall r, l <> "#"%char :: r) -> (forall r, l <> DQ :: r) ->
    (forall k r, In k keywords -> l <> k ++ SP :: r) ->
    complaint n f l (B "unexpected line " ++ dec n ++ B ": " ++ l) false.
