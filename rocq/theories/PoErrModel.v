(** Model of the errors of /repo/translator/{po,reader}.go: the reader with its
    line counter, and the error values that PoModel leaves out. *)
From Verif Require Import GoStr GoFmt GoMap FileModel PoModel ErrModel.
Local Open Scope Z_scope.

(** ** reader.go:9-21; [totalLine] is the length of [lines] *)
Record reader := { r_lines : list bytes; r_no : Z }.
(** reader.go:15-21 *)
Definition new_reader (lines : list bytes) : reader := {| r_lines := lines; r_no := -1 |}.
(** reader.go:23-31; [LBefore] is the error of line 25 *)
Inductive lineres := LBefore | LEof | LLine (l : bytes).
(* reader.go:23-31 *)
Definition current_line (r : reader) : lineres :=
  if r_no r <? 0 then LBefore
  else match nth_error (r_lines r) (Z.to_nat (r_no r)) with Some l => LLine l | None => LEof end.
(** reader.go:33-36 *)
Definition next_line (r : reader) : lineres * reader :=
  let r' := {| r_lines := r_lines r; r_no := r_no r + 1 |} in (current_line r', r').
(** reader.go:38-44; its error is ignored by the callers (po.go:118, 127, 142, 158, 173, 188) *)
Definition unget_line (r : reader) : reader :=
  if r_no r <? 0 then r else {| r_lines := r_lines r; r_no := r_no r - 1 |}.

(** po.go:79-85, the texts of the states *)
Definition state_text (s : pstate) : bytes :=
  match s with
  | SNone => []
  | SCtxt => B "ctxt"
  | SId2 => B "msgid_plural"
  | SId => B "msgid"
  | SStrN => B "msgstr[]"
  | SStr => B "msgstr"
  end.

Section PoErr.
Context {A : Type}.
Variable print : spec -> arg (val A) -> bytes.
Variable as_int : arg (val A) -> option Z.
Variable extra : list (arg (val A)) -> bytes.
(* errEmptyPo (po.go:15), errInvalidEntry (po.go:75), io.EOF and strconv.ErrSyntax *)
Variables empty_po invalid_entry eof syntax : err.
(* the identity of the next error allocated *)
Variable next : nat.

(** po.go:106, 133, 148, 164, 179, 194, 206, 222: the error of [readEntry] around its reason *)
Definition invalid (reason : err) : err :=
  WithSecondaryError print as_int extra (S next) (Some invalid_entry) (Some reason).
(** po.go:134, 149, 165, 195: the field is part of the format *)
Definition unquote_failed (field : bytes) (no : Z) (line : bytes) : err :=
  invalid (Wrapf print as_int extra next (Some syntax)
             (B "unquote " ++ field ++ B " failed|line %d: %s") [VInt no; VStr line]).
(** po.go:180, 207: the field is an argument *)
Definition unquote_failed_s (field : bytes) (no : Z) (line : bytes) : err :=
  invalid (Wrapf print as_int extra next (Some syntax)
             (B "unquote %s failed|line %d: %s") [VStr field; VInt no; VStr line]).
(** po.go:223 *)
Definition unexpected (no : Z) (line : bytes) : err :=
  invalid (Errorf print as_int extra next (B "unexpected line %d: %s") [VInt no; VStr line]).
(** po.go:109-224: the error of a line for which [line_action] fails *)
Definition line_error (no : Z) (s : pstate) (e : entry) (line : bytes) : err :=
  if has_prefix P_ctxt line then unquote_failed (B "msgctxt") no line else
  if has_prefix P_id2 line then unquote_failed (B "msgid_plural") no line else
  if has_prefix P_id line then unquote_failed (B "msgid") no line else
  if has_prefix (P_strn (length (e_strn e))) line then unquote_failed_s (P_strn (length (e_strn e))) no line else
  if has_prefix P_str line then unquote_failed (B "msgstr") no line else
  if has_prefix [DQ] line then unquote_failed_s (state_text s) no line
  else unexpected no line.

(** [readEntry] (po.go:78-226) with the reader and the error values.  [XFuel]:
    out of fuel. *)
Inductive rentry_e := XEof (e : entry) | XNext (e : entry) (r : reader) | XErr (x : err) | XPanic | XFuel.
(* po.go:78-226 *)
Fixpoint read_entry_e (fuel : nat) (s : pstate) (e : entry) (r : reader) : rentry_e :=
  match fuel with
  | O => XFuel
  | S n =>
      let (lr, r') := next_line r in
      match lr with
      | LEof => XEof e
      | LBefore =>
          XErr (invalid (Wrapf print as_int extra (S next)
            (Some (Errorf print as_int extra next (B "you should call nextLine() first") [])) (B "read entry failed") []))
      | LLine line =>
          match line_action s e line with
          | ANext s' e' => read_entry_e n s' e' r'
          | AUnget => XNext e (unget_line r')
          | AErr => XErr (line_error (r_no r') s e line)
          | APanic => XPanic
          end
      end
  end.
(** [readPo] (po.go:26-46).  The error of the end of the file is [io.EOF] itself;
    the test of line 39 is made on every error. *)
Inductive pores_e := EOk (f : file) | EFail (x : err) | EPanic | EFuel.
(* po.go:34-45 *)
Fixpoint read_loop_e (fuel : nat) (pot : bool) (f : file) (r : reader) : pores_e :=
  match fuel with
  | O => EFuel
  | S n =>
      match read_entry_e (S (length (r_lines r))) SNone zero_entry r with
      | XEof e =>
          let f := if pot || is_valid e then add_entry f e else f in
          if Is true (Some eof) (Some eof) then EOk f else EFail eof
      | XNext e r' => read_loop_e n pot (if pot || is_valid e then add_entry f e else f) r'
      | XErr x => if pot then EPanic else if Is true (Some x) (Some eof) then EOk f else EFail x
      | XPanic => EPanic
      | XFuel => EFuel
      end
  end.
(* po.go:26-46 *)
Definition read_po_e (pot : bool) (content : bytes) : pores_e :=
  match content with
  | [] => EFail (Wrapf print as_int extra next (Some empty_po) (B "read po file failed") [])
  | _ => let lines := po_lines_of content in read_loop_e (S (length lines)) pot new_file (new_reader lines)
  end.
End PoErr.
