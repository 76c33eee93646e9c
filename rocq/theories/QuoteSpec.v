(** What a quoted string of a .po file looks like: one line between double
    quotes in which every inner quote is preceded by a backslash. *)
From Verif Require Import GoStr.

Inductive escaped : bytes -> Prop :=
| E_nil : escaped []
| E_plain c s : c <> DQ -> c <> BSL -> escaped s -> escaped (c :: s)
| E_pair c s : escaped s -> escaped (BSL :: c :: s).
Definition one_line (s : bytes) : Prop := forall c, In c s -> (0x20 <= code c)%N.
Definition quoted (q : bytes) : Prop := exists body, q = DQ :: body ++ [DQ] /\ escaped body /\ one_line q.
