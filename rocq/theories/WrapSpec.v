(** Specification of how the writer breaks strings into quoted lines: which
    pieces a string gives, without reference to the splitting functions. *)
From Coq Require Import ZArith.
From Verif Require Import GoStr.

(** a newline of [p] is its last byte *)
Definition nl_at_end (p : bytes) : Prop := forall a b, p = a ++ NL :: b -> b = [].
(** nothing follows the last blank of [p] *)
Definition solid (p : bytes) : Prop := ~ In SP p \/ exists q, p = q ++ [SP].
(** the last line of a string: cut in two behind its last blank if it is too
    long and something follows that blank *)
Inductive last_line (th : Z) : bytes -> list bytes -> Prop :=
| L_short r : (Z.of_nat (length r) <= th)%Z -> last_line th r [r]
| L_solid r : solid r -> last_line th r [r]
| L_cut a b : (th < Z.of_nat (length (a ++ SP :: b)))%Z -> ~ In SP b -> b <> [] ->
    last_line th (a ++ SP :: b) [a ++ [SP]; b].
(** a string of one line is treated as a last line; otherwise an empty piece
    comes first, then each line but the last, whole, then the last line *)
Definition line (x : bytes) : bytes := x ++ [NL].
Inductive wrapped (th : Z) : bytes -> list bytes -> Prop :=
| W_one s l : nl_at_end s -> last_line th s l -> wrapped th s l
| W_more firsts r l :
    firsts <> [] -> Forall (fun x => ~ In NL x) firsts -> r <> [] -> nl_at_end r -> last_line th r l ->
    wrapped th (concat (map line firsts) ++ r) ([] :: map line firsts ++ l).
