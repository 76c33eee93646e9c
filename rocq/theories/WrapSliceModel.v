(** errors.Wrapf on the slice of its variadic arguments
    (/repo/errors/errors.go:12-15); slices and append as in SliceModel.v. *)
From Verif Require Import GoStr GoFmt SliceModel ErrModel.

Section Wrap.
Context {A : Type}.
Notation value := (arg (val A)).
Variable print : spec -> value -> bytes.
Variable as_int : value -> option Z.
Variable extra : list value -> bytes.
(** errors.go:12-15; fmt.Errorf only reads.  [room]: what the runtime leaves
    behind the elements of a newly allocated array *)
Definition wrapf_heap (next : nat) (room : list value) (h : heap value) (e : option err) (format : bytes) (args : slice) : err * heap value :=
  let '(h', args') := append1 room h args (boxed e) in
  (errorf print as_int extra next (format ++ B ": %w") (elems h' args'), h').
(** a program that wraps errors one after the other, with slices of one memory *)
(* callers of errors.go:12 *)
Fixpoint wrap_all (next : nat) (h : heap value) (calls : list (list value * option err * bytes * slice)) : list err * heap value :=
  match calls with
  | [] => ([], h)
  | (room, e, format, args) :: r =>
      let '(x, h') := wrapf_heap next room h e format args in
      let '(xs, h'') := wrap_all (S next) h' r in (x :: xs, h'')
  end.
End Wrap.
