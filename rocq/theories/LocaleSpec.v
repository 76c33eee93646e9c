(** Language names. *)
From Coq Require Import List.
From Verif Require Import GoStr GoMap TransModel.
Import ListNotations.
Definition lower (c : Ascii.ascii) : Prop := (97 <= code c <= 122)%N.
Definition upper (c : Ascii.ascii) : Prop := (65 <= code c <= 90)%N.
Definition digit (c : Ascii.ascii) : Prop := (48 <= code c <= 57)%N.
(** ISO 639: two or three lower-case letters *)
Definition language_code (b : bytes) : Prop := (length b = 2 \/ length b = 3) /\ Forall lower b.
(** ISO 3166 or UN M.49: two capitals or three digits *)
Definition region_code (r : bytes) : Prop := length r = 2 /\ Forall upper r \/ length r = 3 /\ Forall digit r.
(** ll_CC *)
Definition ll_CC (s : bytes) : Prop := exists b r, s = b ++ B "_" ++ r /\ language_code b /\ region_code r.

Section Reach.
Context {A : Type}.
Variable fmt : bytes -> list A -> bytes.
Variable norm : bytes -> bytes.
(** the names the system may give for its language *)
Variable system : bytes -> Prop.
Definition system_op (o : @op A) : Prop :=
  match o with ONew d | OL _ _ d | OWith _ d | OSetLocale _ _ d => system d | _ => True end.
Inductive reach_on : @state A -> Prop :=
| RO_init d : system d -> reach_on (init d)
| RO_step s o : reach_on s -> known s o -> system_op o -> reach_on (do_op fmt norm s o).
End Reach.
