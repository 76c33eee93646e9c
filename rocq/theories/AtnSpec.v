(** What the tables of the generated lexer and parser are held against: the
    numbering of the tokens (the rest is the specification of plural
    expressions, PluralSpec). *)
From Verif Require Import GoStr PluralModel PluralSpec.
Local Open Scope Z_scope.

(** the number of a token: its place in the list of literal names, 28 for a
    number; 0 stands for no token *)
Definition token_type (t : tok) : Z :=
  match t with
  | KInc => 1 | KDec => 2 | KPlus => 3 | KMinus => 4 | KTilde => 5 | KBang => 6 | KMul => 7
  | KDiv => 8 | KMod => 9 | KShr => 10 | KShl => 11 | KGt => 12 | KLt => 13 | KGe => 14
  | KLe => 15 | KEq => 16 | KNe => 17 | KAnd => 18 | KXor => 19 | KOr => 20 | KLand => 21
  | KLor => 22 | KQ => 23 | KColon => 24 | KLP => 25 | KRP => 26 | KN => 27 | KInt _ => 28
  | KErr => 0
  end.
(** a token as the parser is given it: type and characters *)
Definition token (t : tok) : Z * list Z :=
  (token_type t, map (fun c => Z.of_N (code c)) (text t)).
(** the tokens that may follow a complete operand in a place of precedence [p] *)
Definition goes_on (p : Z) (t : tok) : Prop :=
  (t = KQ /\ p <= 1) \/ (exists o, post_level t o /\ p <= 15) \/
  (exists o k, bin_level t o k /\ p <= Z.of_nat k).
(** the tokens an operand begins with *)
Definition opens (t : tok) : Prop :=
  t = KLP \/ t = KN \/ (exists ds, t = KInt ds) \/ (exists o, pre_level t o).
