(** What a destination must and may do: the contract of io.Writer. *)
From Coq Require Import List ZArith.
From Verif Require Import GoStr.
Local Open Scope Z_scope.
(** it takes at most what it is given, and returns an error if it takes less *)
Definition honest (written : bytes -> Z * bool) : Prop :=
  forall b n e, written b = (n, e) -> 0 <= n <= Z.of_nat (length b) /\ (n < Z.of_nat (length b) -> e = true).
(** it takes everything *)
Definition faultless (written : bytes -> Z * bool) : Prop := forall b, written b = (Z.of_nat (length b), false).
