(** Calls in parentheses a field is taken of, as in (f x).y; independent of the
    extraction. *)
From Verif Require Import GoStr FileModel XtModel XtSpec.

(** the arguments inside such parentheses, at any depth *)
Inductive in_chain : pipe -> list anode -> nat -> Prop :=
| IC_here p cmd inner fields args n : In cmd p -> In (AChain (APipe inner) fields) cmd -> in_pipe_all inner args n -> in_chain p args n
| IC_paren p cmd inner args n : In cmd p -> In (APipe inner) cmd -> in_chain inner args n -> in_chain p args n.
(** there are such parentheses *)
Inductive has_chain : pipe -> Prop :=
| HC_here p cmd inner fields : In cmd p -> In (AChain (APipe inner) fields) cmd -> has_chain p
| HC_paren p cmd inner : In cmd p -> In (APipe inner) cmd -> has_chain inner -> has_chain p.
(** a message of a call inside such parentheses *)
Definition message_chain (file : bytes) (kws : list keyword) (t : tnode) (k : keyword) (e : entry) : Prop :=
  exists o line p args n, in_node t o line p /\ in_chain p args n /\ In k kws /\ calls (ref file line) k args n e.
