(** What errors of [plurals.Eval] are held against. *)
From Verif Require Import GoStr PluralModel PluralSpec.

(** the text begins with the expression [e], possibly behind opening parentheses *)
Inductive opens_with (e : exp) : bytes -> Prop :=
| O_here s : accepts s e -> opens_with e s
| O_open s : opens_with e s -> opens_with e ("("%char :: s).
(** the texts [Eval] knows by heart: a common expression up to blanks *)
Definition known (s : bytes) : Prop := exists f, In (remove_byte SP s, f) commons.
