(** What a .mo file keeps of any entry. *)
From Verif Require Import GoStr GoMap FileModel PoModel PoSpec MoModel MoSpec.

(** the strings by which an entry is stored *)
Definition id_string (e : entry) : bytes :=
  match e_ctxt e with [] => [] | c => c ++ [EOT] end ++ e_id e ++ (if e_plural e then NUL :: e_id2 e else []).
Definition str_string (e : entry) : bytes :=
  match e_strn e with [] => e_str e | l => join [NUL] l end.
(** [e'] is what these strings mean *)
Definition comes_back (e e' : entry) : Prop := means (id_string e) (str_string e) e'.
(** the last entry with a key *)
Definition last_of (es : list entry) (k : bytes) (o : option entry) : Prop :=
  match o with
  | Some e => exists a b, es = a ++ e :: b /\ e_key e = k /\ forall x, In x b -> e_key x <> k
  | None => forall x, In x es -> e_key x <> k
  end.
