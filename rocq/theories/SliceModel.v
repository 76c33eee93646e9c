(** Slices and [append] as [f.Format] uses them on its variadic arguments
    (/repo/f/format.go:12-22).  The heap is a list of backing arrays. *)
From Verif Require Import GoStr GoFmt.

(* a slice header: array, offset, length, capacity; args of f/format.go:12 *)
Record slice := { sl_arr : nat; sl_off : nat; sl_len : nat; sl_cap : nat }.
(* the backing arrays *)
Definition heap (V : Type) := list (list V).
(* an assignment to one element *)
Definition update {V} (l : list V) (i : nat) (v : V) : list V := firstn i l ++ v :: skipn (S i) l.
(** a slice lies within its array *)
(* the slices format.go:12 can be called with *)
Definition slice_ok {V} (h : heap V) (s : slice) : Prop :=
  (sl_len s <= sl_cap s)%nat /\ exists a, nth_error h (sl_arr s) = Some a /\ (sl_off s + sl_cap s <= length a)%nat.
(** the elements of a slice *)
(* used at format.go:20-22 *)
Definition elems {V} (h : heap V) (s : slice) : list V :=
  match nth_error h (sl_arr s) with Some a => firstn (sl_len s) (skipn (sl_off s) a) | None => [] end.
(** the built-in append of one element.  [room]: what the runtime leaves behind
    the elements in a newly allocated array (any list). *)
(* called at format.go:20 *)
Definition append1 {V} (room : list V) (h : heap V) (s : slice) (v : V) : heap V * slice :=
  if Nat.ltb (sl_len s) (sl_cap s) then
    match nth_error h (sl_arr s) with
    | Some a => (update h (sl_arr s) (update a (sl_off s + sl_len s) v),
                 {| sl_arr := sl_arr s; sl_off := sl_off s; sl_len := S (sl_len s); sl_cap := sl_cap s |})
    | None => (h, s)
    end
  else
    (h ++ [elems h s ++ v :: room],
     {| sl_arr := length h; sl_off := 0; sl_len := S (sl_len s); sl_cap := S (sl_len s) + length room |}).

Section Format.
Context {A : Type}.
Variable print : spec -> arg A -> bytes.
Variable as_int : arg A -> option Z.
Variable extra : list (arg A) -> bytes.
(** format.go:12-23 on slices; formatting itself only reads *)
Definition format_heap (room : list (arg A)) (h : heap (arg A)) (format : bytes) (args : slice) : bytes * heap (arg A) :=
  if Nat.eqb (sl_len args) 0 then (format, h)
  else
    let '(h', args') := append1 room h args (VStr []) in
    let format' := sprintf print as_int extra (B "%s%%[%d]s") [VStr format; VInt (Z.of_nat (sl_len args) + 1)] in
    (sprintf print as_int extra format' (elems h' args'), h').
End Format.
