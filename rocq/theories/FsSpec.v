(** Specification of loading a file tree: which files are seen, and which one of
    them counts.  Paths are lists of names. *)
From Verif Require Import GoStr FsModel.

Definition path := list bytes.
(** the file at a path has this content *)
Inductive at_path : node -> path -> bytes -> Prop :=
| AP_file n c : at_path (NFile n (Content c)) [n] c
| AP_dir n l t p c : In t l -> at_path t p c -> at_path (NDir n (Some l)) (n :: p) c.
(** the directory at a path cannot be listed *)
Inductive locked : node -> path -> Prop :=
| LK_here n : locked (NDir n None) [n]
| LK_dir n l t p : In t l -> locked t p -> locked (NDir n (Some l)) (n :: p).
(** no directory has two entries of the same name *)
Inductive distinct : node -> Prop :=
| DI_file n d : distinct (NFile n d)
| DI_none n : distinct (NDir n None)
| DI_dir n l : NoDup (map node_name l) -> (forall t, In t l -> distinct t) -> distinct (NDir n (Some l)).
(** component by component, bytewise *)
Fixpoint path_before (p q : path) : Prop :=
  match p, q with
  | _, [] => False
  | [], _ :: _ => True
  | x :: p', y :: q' => bltb x y = true \/ x = y /\ path_before p' q'
  end.
(** a file that comes before every directory that cannot be listed *)
Definition visible (t : node) (p : path) (c : bytes) : Prop :=
  at_path t p c /\ forall q, locked t q -> path_before p q.
Definition named (ext : bytes) (p : path) : Prop := exists q x, p = q ++ [x ++ ext].
(** the last visible file with extension [ext] that satisfies [P] *)
Definition latest (t : node) (ext : bytes) (P : bytes -> Prop) (c : bytes) : Prop :=
  exists p, visible t p c /\ named ext p /\ P c
    /\ forall q c', visible t q c' -> named ext q -> P c' -> q = p \/ path_before q p.
Definition nowhere (t : node) (ext : bytes) (P : bytes -> Prop) : Prop :=
  forall q c', visible t q c' -> named ext q -> ~ P c'.
Definition somewhere (t : node) (ext : bytes) (P : bytes -> Prop) : Prop :=
  exists q c, visible t q c /\ named ext q /\ P c.
