(** Specification of a program's handles by the calls it has made: what each
    handle is set to and which files its domains were last bound to.  No heap, no
    sharing, no catalogs. *)
From Verif Require Import GoStr FileModel TransModel TransSpec.

Section Hist.
Context {A : Type}.
Variable norm : bytes -> bytes.
(** the domain of a handle was last bound to the files of these two walks (one
    for .mo files, one for .po files), if at all *)
Record handle := { a_locale : bytes; a_domain : bytes; a_source : bytes; a_bound : bytes -> option (list event * list event) }.
(** the handles of the program, and which of them is the global one *)
Record program := { a_handles : list handle; a_global : nat }.
Definition new_handle (sys : bytes) : handle :=
  {| a_locale := sys; a_domain := B "default"; a_source := B "en_US"; a_bound := fun _ => None |}.
Definition in_domain (d : bytes) (x : handle) : handle :=
  {| a_locale := a_locale x; a_domain := d; a_source := a_source x; a_bound := a_bound x |}.
(** the empty name means the language of the system *)
Definition in_language (l sys : bytes) (x : handle) : handle :=
  {| a_locale := match l with [] => sys | _ => norm l end; a_domain := a_domain x; a_source := a_source x; a_bound := a_bound x |}.
Definition of_source (l : bytes) (x : handle) : handle :=
  {| a_locale := a_locale x; a_domain := a_domain x; a_source := norm l; a_bound := a_bound x |}.
Definition loads (wm wp : list event) : bool :=
  existsb (fun x => match gives x with Some _ => true | None => false end) (hits (B ".mo") wm ++ hits (B ".po") wp).
(** files that cannot be loaded do not count *)
Definition bound_to (d : bytes) (wm wp : list event) (x : handle) : handle :=
  if loads wm wp then
    {| a_locale := a_locale x; a_domain := a_domain x; a_source := a_source x;
       a_bound := fun d' => if beq d' d then Some (wm, wp) else a_bound x d' |}
  else x.
(** a domain that was not bound cannot be removed; the empty name names none *)
Definition without (d : bytes) (x : handle) : handle :=
  match d, a_bound x d with
  | _ :: _, Some _ =>
      {| a_locale := a_locale x; a_domain := if beq (a_domain x) d then B "default" else a_domain x; a_source := a_source x;
         a_bound := fun d' => if beq d' d then None else a_bound x d' |}
  | _, _ => x
  end.
Definition cleared (x : handle) : handle :=
  {| a_locale := a_locale x; a_domain := B "default"; a_source := a_source x; a_bound := fun _ => None |}.
Fixpoint alter (h : nat) (f : handle -> handle) (l : list handle) : list handle :=
  match l, h with
  | [], _ => []
  | x :: r, O => f x :: r
  | x :: r, S h' => x :: alter h' f r
  end.
Definition on (h : nat) (f : handle -> handle) (p : program) : program :=
  {| a_handles := alter h f (a_handles p); a_global := a_global p |}.
(** a new handle that starts as a copy of [h] *)
Definition copy (h : nat) (f : handle -> handle) (p : program) : program :=
  match nth_error (a_handles p) h with
  | Some x => {| a_handles := a_handles p ++ [f x]; a_global := a_global p |}
  | None => p
  end.
(** a call; those that translate change nothing *)
Definition makes (p : program) (o : @op A) : program :=
  match o with
  | ONew sys => {| a_handles := a_handles p ++ [new_handle sys]; a_global := a_global p |}
  | OGlobal => copy (a_global p) (fun x => x) p
  | OSetGlobal h => {| a_handles := a_handles p; a_global := h |}
  | OD h d => copy h (in_domain d) p
  | OL h l sys => copy h (in_language l sys) p
  | OWith c sys =>
      let p := copy (a_global p) (fun x => x) p in
      let p := match get_ctx_locale c with Some l => copy (length (a_handles p) - 1) (in_language l sys) p | None => p end in
      match get_ctx_domain c with Some d => copy (length (a_handles p) - 1) (in_domain d) p | None => p end
  | OSetDomain h d => on h (in_domain d) p
  | OSetLocale h l sys => on h (in_language l sys) p
  | OSetSource h l => on h (of_source l) p
  | OBind h d wm wp => on h (bound_to d wm wp) p
  | ORemove h d => on h (without d) p
  | OClear h => on h cleared p
  | _ => p
  end.
Definition made (sys : bytes) (os : list (@op A)) : program :=
  fold_left makes os {| a_handles := [new_handle sys]; a_global := 0 |}.

Variable fmt : bytes -> list A -> bytes.
(** how a handle answers whose domain was bound to [b], in language [l]: from the
    catalog that decides among these files, else with the source text *)
Definition speaks_by (s : @state A) (h : nat) (l src : bytes) (b : option (list event * list event)) : Prop :=
  match b with
  | Some (wm, wp) =>
      (exists f, wins norm l (catalogs (B ".mo") wm) (catalogs (B ".po") wp) f /\ answers_from fmt s h f /\ used_locale s h = l)
      \/ nobody norm l (catalogs (B ".mo") wm) (catalogs (B ".po") wp) /\ source_text fmt s h /\ used_locale s h = src
  | None => source_text fmt s h /\ used_locale s h = src
  end.
(** programs that do not reach into translations and catalogs directly *)
Inductive ran (sys : bytes) : list (@op A) -> @state A -> Prop :=
| Ran_none : ran sys [] (init sys)
| Ran_call os s o : ran sys os s -> known s o -> ~ direct o -> ran sys (os ++ [o]) (do_op fmt norm s o).
End Hist.
