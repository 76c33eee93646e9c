(** White space around a text.  Independent of the trimming functions. *)
From Verif Require Import GoStr.

(** one white space character, in UTF-8 *)
Definition blank1 (w : bytes) : Prop := exists r, is_space r = true /\ w = encode_rune r.
(** a sequence of them *)
Inductive blanks : bytes -> Prop :=
| BL_nil : blanks []
| BL_cons w s : blank1 w -> blanks s -> blanks (w ++ s).
(** [trims s x]: [x] is [s] without the white space around it *)
Definition trims (s x : bytes) : Prop :=
  exists a b, s = a ++ x ++ b /\ blanks a /\ blanks b
    /\ (forall w t, blank1 w -> x <> w ++ t) /\ (forall w t, blank1 w -> x <> t ++ w).
