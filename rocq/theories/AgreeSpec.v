(** Where the library's plural operators give what C's give, operation by operation
    (C04).  Independent of the model; shares the trees and C's own rules. *)
From Verif Require Import GoStr PluralModel PluralSpec PluralCSpec.
Local Open Scope Z_scope.

(** [same n e v]: C evaluates [e] to [v] and every operation it performs on the way
    has operands on which the library does the same: 0 or 1 under ! and in front of
    ?, 0 on both sides of ^, ... *)
Inductive same (n : Z) : exp -> Z -> Prop :=
| S_int ds : numeral ds < 2 ^ 63 -> same n (EInt ds) (numeral ds)
| S_var : same n EVar n
| S_paren e v : same n e v -> same n (EParen e) v
| S_plus e x : same n e x -> same n (EPre PPlus e) x
| S_minus e x : same n e x -> int64 (- x) -> same n (EPre PMinus e) (- x)
| S_compl e x : same n e x -> same n (EPre PCompl e) (- x - 1)
| S_not e x v : same n e x -> x = 0 \/ x = 1 -> truth (x = 0) v -> same n (EPre PNot e) v
| S_bin o a b x y v : same n a x -> same n b y -> c_op o x y v -> (o = BXor -> x = 0 /\ y = 0) -> same n (EBin o a b) v
| S_and_f a b : same n a 0 -> same n (EBin BLand a b) 0
| S_and_t a b x y v : same n a x -> x <> 0 -> same n b y -> y = 0 \/ x = 1 /\ y = 1 -> truth (y <> 0) v ->
    same n (EBin BLand a b) v
| S_or_t a b : same n a 1 -> same n (EBin BLor a b) 1
| S_or_b a b x : same n a x -> x <> 0 -> same n b 1 -> same n (EBin BLor a b) 1
| S_or_f a b y v : same n a 0 -> same n b y -> y = 0 \/ y = 1 -> truth (y <> 0) v -> same n (EBin BLor a b) v
| S_cond_t a b c v : same n a 1 -> same n b v -> same n (ECond a b c) v
| S_cond_f a b c v : same n a 0 -> same n c v -> same n (ECond a b c) v
| S_cond_e a b c x v : same n a x -> same n b v -> same n c v -> same n (ECond a b c) v.
