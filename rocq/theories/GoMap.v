(** Go maps with string keys: association lists without duplicate keys. *)
From Verif Require Import GoStr.

(* the maps of translator/file.go:22-26, translaton.go:22-25, translations.go:18-24, tag.go:9, param.go:35-42 *)
Definition gmap (V : Type) := list (bytes * V).
Fixpoint mget {V} (k : bytes) (m : gmap V) : option V :=
  match m with
  | [] => None
  | (k', v) :: r => if beq k k' then Some v else mget k r
  end.
(** [m[k] = v] *)
(* used at file.go:86, 117, translaton.go:47, translations.go:57, tag.go:16 *)
Fixpoint mput {V} (k : bytes) (v : V) (m : gmap V) : gmap V :=
  match m with
  | [] => [(k, v)]
  | (k', v') :: r => if beq k k' then (k', v) :: r else (k', v') :: mput k v r
  end.
(** [delete(m, k)] *)
(* used at translations.go:70 *)
Fixpoint mdel {V} (k : bytes) (m : gmap V) : gmap V :=
  match m with
  | [] => []
  | (k', v') :: r => if beq k k' then r else (k', v') :: mdel k r
  end.
(* used at translations.go:106-127 *)
Definition keys {V} (m : gmap V) : list bytes := map fst m.
(* used at file.go:70, param.go:116 *)
Definition vals {V} (m : gmap V) : list V := map snd m.
