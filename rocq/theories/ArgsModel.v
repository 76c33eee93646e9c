(** Goroutines that pass slices of arguments (args...) to the translation
    functions at the same time: /repo/f/format.go:12-23 as a program whose
    accesses to the memory of the caller are single steps.  Steps of different
    goroutines interleave in any order (sequential consistency).
    Simplified: fmt.Sprintf is taken to look at all its arguments, in order; it
    leaves out those that no directive asks for. *)
From Verif Require Import GoStr GoFmt SliceModel.

(** an element of a backing array *)
(* what the elements of args in f/format.go:12 are *)
Definition cell := (nat * nat)%type.
(* an element of args, f/format.go:12 *)
Definition cell_at {V} (h : heap V) (p : cell) : option V :=
  match nth_error h (fst p) with Some a => nth_error a (snd p) | None => None end.
(* an assignment to an element: f/format.go:20 or the caller *)
Definition set_cell {V} (h : heap V) (p : cell) (v : V) : heap V :=
  match nth_error h (fst p) with Some a => update h (fst p) (update a (snd p) v) | None => h end.

Section Args.
Context {A : Type}.
Notation V := (arg A).
Variable print : spec -> V -> bytes.
Variable as_int : V -> option Z.
Variable extra : list V -> bytes.

(** a goroutine: what it does next *)
(* the accesses of f/format.go:20-22 to the array behind args *)
Inductive aprog (R : Type) :=
| ARet (r : R)
| ARead (p : cell) (k : V -> aprog R)
| AWrite (p : cell) (v : V) (k : aprog R).
Arguments ARet {R}. Arguments ARead {R}. Arguments AWrite {R}.
(** reading [n] elements from index [i] on *)
(* f/format.go:20 (copying to a new array), 22 *)
Fixpoint read_from {R} (arr i n : nat) (acc : list V) (k : list V -> aprog R) : aprog R :=
  match n with
  | O => k (rev acc)
  | S n => ARead (arr, i) (fun v => read_from arr (S i) n (v :: acc) k)
  end.
(** f/format.go:12-23.  With room behind the slice append writes there; without,
    it copies to a new array, which no other goroutine knows. *)
Definition format_c {R} (format : bytes) (args : slice) (k : bytes -> aprog R) : aprog R :=
  if Nat.eqb (sl_len args) 0 then k format
  else
    let format' := sprintf print as_int extra (B "%s%%[%d]s") [VStr format; VInt (Z.of_nat (sl_len args) + 1)] in
    if Nat.ltb (sl_len args) (sl_cap args) then
      AWrite (sl_arr args, sl_off args + sl_len args)%nat (VStr [])
        (read_from (sl_arr args) (sl_off args) (S (sl_len args)) [] (fun vs => k (sprintf print as_int extra format' vs)))
    else
      read_from (sl_arr args) (sl_off args) (sl_len args) [] (fun vs => k (sprintf print as_int extra format' (vs ++ [VStr []]))).

(** what a goroutine does: it formats (every translation function ends in one
    call of Format), it assigns to and reads elements of its own *)
(* f/format.go:12 and a caller *)
Inductive aop := OFormat (format : bytes) (args : slice) | OSet (p : cell) (v : V) | OGet (p : cell).
(* what these give: a text, nothing, the value of the element *)
Inductive aans := NText (s : bytes) | NDone | NVal (v : V).
(* no counterpart in /repo: a caller of f/format.go:12 *)
Fixpoint run_aops (os : list aop) (acc : list aans) : aprog (list aans) :=
  match os with
  | [] => ARet acc
  | OFormat f s :: os => format_c f s (fun t => run_aops os (acc ++ [NText t]))
  | OSet p v :: os => AWrite p v (run_aops os (acc ++ [NDone]))
  | OGet p :: os => ARead p (fun v => run_aops os (acc ++ [NVal v]))
  end.

(** one step of one goroutine; an access outside of the memory is none *)
(* one access of f/format.go:20-22 or of a caller *)
Definition astep {R} (h : heap V) (p : aprog R) : option (heap V * aprog R) :=
  match p with
  | ARet _ => None
  | ARead c k => match cell_at h c with Some v => Some (h, k v) | None => None end
  | AWrite c v k => match cell_at h c with Some _ => Some (set_cell h c v, k) | None => None end
  end.
(** any of the goroutines makes a step *)
(* no counterpart in /repo: the Go scheduler *)
Inductive asteps {R} : heap V * list (aprog R) -> heap V * list (aprog R) -> Prop :=
| AS_refl c : asteps c c
| AS_step c h a p b h' p' : asteps c (h, a ++ p :: b) -> astep h p = Some (h', p') -> asteps c (h', a ++ p' :: b).
End Args.
Arguments ARet {A R}. Arguments ARead {A R}. Arguments AWrite {A R}.
Arguments OFormat {A}. Arguments OSet {A}. Arguments OGet {A}. Arguments NText {A}. Arguments NDone {A}. Arguments NVal {A}.
