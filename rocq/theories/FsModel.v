(** Model of the file system walk of /repo/translaton.go:67-91: [fs.WalkDir] of
    package io/fs on a file tree.  Model of the Go library, except for the
    callback, which is [TransModel.walk]; the two are joined by the list of calls
    [fs.WalkDir] makes.  A [pathFS] (/repo/fs.go:9-20) shows the tree under its
    path; for the path of a file the tree is that file. *)
From Verif Require Import GoStr TransModel.

(** what opening and reading a file gives.  Simplified: a file whose Stat fails
    after opening counts as unreadable; LoadFile returns an error either way
    (translaton.go:95-104). *)
Inductive fdata := Unopenable | Unreadable | Content (c : bytes).
(** [NDir name None] is a directory whose listing gives an error; entries that
    came before the error are not visited either, because the callback returns
    the error.  A link to a file is a file, a link to a directory is a file that
    cannot be read (the walk does not follow links). *)
(* the argument of translaton.go:67 and fs.go:10-20 *)
Inductive node := NFile (name : bytes) (d : fdata) | NDir (name : bytes) (l : option (list node)).
(* the method Name of an fs.DirEntry and an fs.FileInfo, translaton.go:75 and 99 *)
Definition node_name (t : node) : bytes := match t with NFile n _ => n | NDir n _ => n end.
(** [f.Open(path)] and what LoadFile does with it (translaton.go:94-104) *)
Definition opened (name : bytes) (d : fdata) : option fsfile :=
  match d with
  | Unopenable => None
  | Unreadable => Some {| ff_name := Some name; ff_content := None |}
  | Content c => Some {| ff_name := Some name; ff_content := Some c |}
  end.
(** [fs.ReadDir] sorts the entries by name *)
(* used by fs.WalkDir at translaton.go:88-89 *)
Fixpoint insert {X} (n : bytes) (x : X) (l : list (bytes * X)) : list (bytes * X) :=
  match l with
  | [] => [(n, x)]
  | (m, y) :: r => if bltb m n then (m, y) :: insert n x r else (n, x) :: l
  end.
(* used by fs.WalkDir at translaton.go:88-89 *)
Fixpoint sort_names {X} (l : list (bytes * X)) : list (bytes * X) :=
  match l with
  | [] => []
  | (n, x) :: r => insert n x (sort_names r)
  end.
(** io/fs walkDir: the callback on the node; for a directory then again with the
    error of ReadDir, or the entries in order.  The callback returns an error
    exactly if it gets one, which ends the whole walk; [TransModel.walk] ignores
    what follows an error. *)
(* used by fs.WalkDir at translaton.go:88-89 *)
Fixpoint events (t : node) : list event :=
  match t with
  | NFile n d => [EEntry false n (opened n d)]
  | NDir n None => [EEntry true n None; EErr]
  | NDir n (Some l) =>
      EEntry true n None :: concat (map snd (sort_names (map (fun x => (node_name x, events x)) l)))
  end.
(** fs.WalkDir: [None] is a root that cannot be opened or stat'ed *)
(* called at translaton.go:88-89 *)
Definition walk_dir (root : option node) : list event :=
  match root with None => [EErr] | Some t => events t end.
