(** From templates to translated pages. *)
From Coq Require Import List ZArith.
From Verif Require Import GoStr GoMap FileModel.
Import ListNotations.
(** [es] translates the template file [f] completely: every message is there,
    with [d] texts if it has a plural and one otherwise *)
Definition finished (f : file) (d : Z) (es : list entry) : Prop :=
  forall k m, mget k (f_entries f) = Some m -> k <> key [] [] ->
  exists e, In e es /\ e_key e = k
    /\ if e_plural m then Z.of_nat (length (e_strn e)) = d /\ ~ In [] (e_strn e) else e_str e <> [].
(** the entries of [es] have no other texts than the template file [f] asks for *)
Definition asked (f : file) (es : list entry) : Prop :=
  forall k m, mget k (f_entries f) = Some m -> forall e, In e es -> e_key e = k ->
  if e_plural m then e_str e = [] else e_id2 e = [] /\ e_strn e = [].
