(** Model of the errors of [ReadMo] (/repo/translator/mo.go:92-196), and of the
    buffers it asks for: what MoModel leaves out. *)
From Verif Require Import GoStr GoFmt GoMap FileModel PoModel MoModel ErrModel.
Local Open Scope N_scope.

Section MoErr.
Context {A : Type}.
Variable print : spec -> arg (val A) -> bytes.
Variable as_int : arg (val A) -> option Z.
Variable extra : list (arg (val A)) -> bytes.
(* errReadMo (mo.go:74), io.EOF and io.ErrUnexpectedEOF *)
Variables err_read_mo eof unexpected_eof : err.
(* the identity of the next error allocated *)
Variable next : nat.

(** mo.go:98, 107, 113, 116, 119, 132, 147, 162, 173: the error around its reason *)
Definition mo_failed (reason : err) : err :=
  WithSecondaryError print as_int extra (S next) (Some err_read_mo) (Some reason).
(** the error of [io.ReadFull], called by [binary.Read], if the bytes left [s] are too few *)
(* used by binary.Read at mo.go:97, 112, 131, 146, 161, 172 *)
Definition short (s : bytes) : err := match s with [] => eof | _ => unexpected_eof end.
(** mo.go:98, 113, 133, 148, 163, 174 *)
Definition cannot_read (format : bytes) (args : list (arg (val A))) (left : bytes) : err :=
  mo_failed (Wrapf print as_int extra next (Some (short left)) format args).
(** mo.go:107, 116, 119 *)
Definition bad_value (format : bytes) (v : N) : err :=
  mo_failed (Errorf print as_int extra next format [VInt (Z.of_N v)]).
(** mo.go:128-136 and 143-151: the rows from row [i] on, or the number of the
    row that cannot be read and what is left there *)
Fixpoint read_table_e (bo : border) (n i : N) (s : bytes) : list (N * N) + N * bytes :=
  if n =? 0 then inl [] else
  match s with
  | a1 :: a2 :: a3 :: a4 :: b1 :: b2 :: b3 :: b4 :: r =>
      match read_table_e bo (n - 1) (i + 1) r with
      | inl l => inl ((word32 bo a1 a2 a3 a4, word32 bo b1 b2 b3 b4) :: l)
      | inr x => inr x
      end
  | _ => inr (i, s)
  end.
(** mo.go:154-194.  First component: the lengths of the buffers made at lines
    160 and 171, in this order.  The seeking at lines 156 and 167 does not fail,
    offsets are not negative. *)
Inductive mores_e := MOk (f : file) | MFail (x : err) | MPanic.
(* mo.go:154-194 *)
Fixpoint read_strings_e (content : bytes) (i : N) (ids strs : list (N * N)) (f : file) : list N * mores_e :=
  match ids, strs with
  | [], _ => ([], MOk f)
  | a :: ids', b :: strs' =>
      match read_str content a with
      | None => ([fst a], MFail (cannot_read (B "failed to read msg_id[%d]") [VInt (Z.of_N i)] (drop (snd a) content)))
      | Some id =>
          match read_str content b with
          | None => ([fst a; fst b], MFail (cannot_read (B "failed to read msg_str[%d]") [VInt (Z.of_N i)] (drop (snd b) content)))
          | Some str =>
              let (q, r) := read_strings_e content (i + 1) ids' strs' (add_entry f (mo_entry id str)) in
              (fst a :: fst b :: q, r)
          end
      end
  | _ :: _, [] => ([], MPanic)
  end.
(** mo.go:110-196 *)
Definition read_with_e (bo : border) (content : bytes) : list N * mores_e :=
  match read_header bo content with
  | None => ([], MFail (cannot_read (B "failed to read mo header") [] (drop 4 content)))
  | Some h =>
      if negb (h_major h =? 0) && negb (h_major h =? 1)
      then ([], MFail (bad_value (B "unsopported major version: %v") (h_major h))) else
      if negb (h_minor h =? 0) && negb (h_minor h =? 1)
      then ([], MFail (bad_value (B "unsopported minor version: %v") (h_minor h))) else
      match read_table_e bo (h_count h) 0 (drop (h_o h) content) with
      | inr (i, s) => ([], MFail (cannot_read (B "failed to read msg_id[%d] length & offset") [VInt (Z.of_N i)] s))
      | inl ids =>
          match read_table_e bo (h_count h) 0 (drop (h_t h) content) with
          | inr (i, s) => ([], MFail (cannot_read (B "failed to read msg_str[%d] length & offset") [VInt (Z.of_N i)] s))
          | inl strs => read_strings_e content 0 ids strs new_file
          end
      end
  end.
(** mo.go:92-196 *)
Definition read_mo_e (content : bytes) : list N * mores_e :=
  match read_magic content with
  | None => ([], MFail (cannot_read (B "failed to read magic number") [] content))
  | Some magic =>
      if magic =? mo_magic_big then read_with_e BE content
      else if magic =? mo_magic then read_with_e LE content
      else ([], MFail (bad_value (B "invalid magic number: %v") magic))
  end.
End MoErr.
