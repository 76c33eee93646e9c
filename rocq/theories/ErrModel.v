(** Model of /repo/errors/errors.go and of the error listener of
    /repo/plurals/err.go: errors, their wrapping and [errors.Is]. *)
From Verif Require Import GoStr GoFmt.
Local Open Scope Z_scope.

(** An error value: [id] is its identity (two error interfaces are == exactly if
    they have the same identity: the same pointer, or equal comparable values),
    [msg] its text, [meth] its [Is] method ([fun _ => false] if it has none;
    a method sees the identity of its argument), [kids] what [Unwrap] returns.
    Simplified: nil elements of an [Unwrap] slice are left out, package errors
    ignores them. *)
(* Go errors, as errors/errors.go:8-23 and plurals/err.go:11-40 use them *)
Inductive err := Err (id : nat) (msg : bytes) (meth : nat -> bool) (kids : list err).
(* the identity compared by errors.go:22 *)
Definition e_ident (e : err) : nat := match e with Err id _ _ _ => id end.
(* the method Error, used by errors.go:8-19 *)
Definition e_msg (e : err) : bytes := match e with Err _ m _ _ => m end.
(* the method Is of an error, if it has one; called by errors.go:22 *)
Definition e_meth (e : err) : nat -> bool := match e with Err _ _ f _ => f end.
(* the method Unwrap of what errors.go:8-19 make *)
Definition e_kids (e : err) : list err := match e with Err _ _ _ k => k end.

(** A value of type any: an error, nil, or anything else. *)
(* the arguments of errors/errors.go:8,12 *)
Inductive val (A : Type) := VErr (e : err) | VNil | VVal (a : A).
Arguments VErr {A}. Arguments VNil {A}. Arguments VVal {A}.

Section Errors.
Context {A : Type}.
Notation value := (arg (val A)).
Variable print : spec -> value -> bytes.
Variable as_int : value -> option Z.
Variable extra : list value -> bytes.

(** an error interface as an argument of a variadic function *)
(* errors/errors.go:13, 18 *)
Definition boxed (e : option err) : value := match e with Some e => VOther (VErr e) | None => VOther VNil end.
(** the errors printed under the verb w *)
(* used by fmt.Errorf in errors/errors.go:9,14,18 *)
Definition wrapped1 (c : chunk (val A)) : list err :=
  match c with CArg d (VOther (VErr e)) => if (sp_verb d =? 119)%N then [e] else [] | _ => [] end.
(* used by fmt.Errorf in errors/errors.go:9,14,18 *)
Definition wrapped (cs : list (chunk (val A))) : list err := flat_map wrapped1 cs.
(** [fmt.Errorf].  [next] is the identity of the error it allocates.
    Simplified: fmt sorts the wrapped errors by argument number and drops
    repetitions; here they are in the order of the format string. *)
(* called at errors/errors.go:9,14,18 and plurals/err.go:11 *)
Definition errorf (next : nat) (format : bytes) (args : list value) : err :=
  match printf_chunks as_int format args with
  | Some cs => Err next (render print extra cs) (fun _ => false) (wrapped cs)
  | None => Err next [] (fun _ => false) []
  end.

(** /repo/errors/errors.go:8-10 *)
Definition Errorf := errorf.
(** errors.go:12-15 *)
Definition Wrapf (next : nat) (e : option err) (format : bytes) (args : list value) : err :=
  errorf next (format ++ B ": %w") (args ++ [boxed e]).
(** errors.go:17-19 *)
Definition WithSecondaryError (next : nat) (e additional : option err) : err :=
  errorf next (B "%w: %w") [boxed e; boxed additional].

(** /repo/plurals/err.go:35-40, [None] is the nil [d.err]; [antlr] is [ErrAntlr] *)
Definition add_error (antlr : err) (next : nat) (d : option err) (e : err) : option err :=
  let d := match d with None => Some antlr | Some _ => d end in
  Some (WithSecondaryError next d (Some e)).
(** the calls of [SyntaxError] etc. during one evaluation (err.go:19-33): each
    allocates the error it adds, then the joined one *)
Fixpoint listen (antlr : err) (next : nat) (d : option err) (texts : list bytes) : option err :=
  match texts with
  | [] => d
  | m :: r => listen antlr (S (S next)) (add_error antlr (S next) d (Err next m (fun _ => false) [])) r
  end.
End Errors.

(** [errors.Is] of the standard library, the recursive part; [cmp]: the target
    is of a comparable type *)
(* called at errors/errors.go:22 *)
Fixpoint is_ (cmp : bool) (e : err) (target : nat) : bool :=
  match e with
  | Err id _ meth kids =>
      (cmp && Nat.eqb id target) || meth target || existsb (fun k => is_ cmp k target) kids
  end.
(** errors.go:21-23; [None] is nil *)
Definition Is (cmp : bool) (e target : option err) : bool :=
  match e, target with
  | None, None => true
  | None, Some _ | Some _, None => false
  | Some e, Some t => is_ cmp e (e_ident t)
  end.
