(** Copies of [Translation] structs: programs that also declare [Translation{}] and copy or assign
    translations by value ([c := *t], [*t = *src]).  The struct has two fields (translaton.go:22-25);
    copying it copies the address of its map of languages, so both write to one map.  Maps are made by
    NewTranslation only (29), one for each translation: the map made with translation [t] is at
    [s_trs] of [w_state], position [t].  A translation is where its map is, [None] for a nil map.  The
    private field [domain] is never read in /repo and left where it was made.  Everything else is
    TransModel, run on the heap as the program sees it ([flat]). *)
From Verif Require Import GoStr GoMap FileModel PoModel MoModel TransModel ZeroModel.

Section Share.
Context {A : Type}.
Variable fmt : bytes -> list A -> bytes.
Variable norm : bytes -> bytes.
Notation state := (@state A).

(* the structs of translaton.go:22-25 and the maps they point to *)
Record wstate := { w_state : state; w_cells : list (option nat) }.
(* the field langs of translaton.go:24 *)
Definition cell (w : wstate) (t : nat) : option nat := nth t (w_cells w) None.
(** reading through a pointer: a nil map reads as an empty one *)
(* translaton.go:43, 53, 60 *)
Definition look (s : state) (c : option nat) : translation := match c with Some m => the_tr s m | None => no_tr end.
(* no counterpart in /repo: the same heap with other translations *)
Definition put_trs (s : state) (trs : list translation) : state :=
  {| s_ts := s_ts s; s_maps := s_maps s; s_trs := trs; s_files := s_files s; s_global := s_global s |}.
(** the heap as the program sees it: each translation with the languages of its map *)
(* reading through a *Translation (translaton.go:22-25) *)
Definition flat (w : wstate) : state := put_trs (w_state w) (map (look (w_state w)) (w_cells w)).
(** the translation whose map a call assigns to *)
(* the receivers of translaton.go:37, 67, 113, 123 *)
Definition target (o : @op A) : option nat :=
  match o with OAdd t _ | OLoadPo t _ | OLoadMo t _ | OLoadFS t _ _ => Some t | _ => None end.
(** the call left the heap as [s']: its assignments went to the map of its target; the translations
    it made have maps of their own (29) *)
(* translaton.go:28-49 *)
Definition store (w : wstate) (o : @op A) (s' : state) : wstate :=
  let old := length (w_cells w) in
  let trs := match target o with
             | Some t => match cell w t with Some m => upd m (the_tr s' t) (s_trs (w_state w)) | None => s_trs (w_state w) end
             | None => s_trs (w_state w)
             end in
  {| w_state := put_trs s' (trs ++ skipn old (s_trs s'));
     w_cells := w_cells w ++ map Some (seq old (length (s_trs s') - old)) |}.
(** a call that meets a nil map; [true]: it panics *)
(* translaton.go:37-49, 67-91, 113-130 *)
Definition nil_call (s : state) (o : @op A) : bool * state :=
  match o with
  | OAdd _ x => nil_add s x
  | OLoadPo _ c => nil_po s c
  | OLoadMo _ c => nil_mo s c
  | OLoadFS _ wm wp => nil_fs s wm wp
  | _ => (false, s)
  end.
(* Go's composite literals, copies and assignments of the exported type of translaton.go:22 *)
Inductive wop :=
| WCall (o : @op A)
| WZero                     (* new(Translation) *)
| WCopy (t : nat)           (* c := *t, and then &c *)
| WAssign (t src : nat).    (* *t = *src *)
(* one statement of the program *)
Definition wstep (w : wstate) (o : wop) : bool * wstate :=
  let more c := {| w_state := put_trs (w_state w) (s_trs (w_state w) ++ [no_tr]); w_cells := w_cells w ++ [c] |} in
  match o with
  | WCall o =>
      match target o with
      | Some t =>
          match cell w t with
          | Some _ => (false, store w o (do_op fmt norm (flat w) o))
          | None => let (p, s) := nil_call (flat w) o in (p, store w o s)
          end
      | None => (false, store w o (do_op fmt norm (flat w) o))
      end
  | WZero => (false, more None)
  | WCopy t => (false, more (cell w t))
  | WAssign t src => (false, {| w_state := w_state w; w_cells := upd t (cell w src) (w_cells w) |})
  end.
(** a call with addresses the program has *)
(* no counterpart in /repo: the argument exists *)
Definition wknown (w : wstate) (o : wop) : Prop :=
  match o with
  | WCall o => known (flat w) o
  | WZero => True
  | WCopy t => t < length (w_cells w)
  | WAssign t src => t < length (w_cells w) /\ src < length (w_cells w)
  end.
(* init.go:7, translaton.go:18: the program starts; a panic is recovered by the caller *)
Definition winit (d : bytes) : wstate := {| w_state := init d; w_cells := [Some 0] |}.
(* a program: any sequence of the calls above *)
Definition wrun (d : bytes) (os : list wop) : wstate := fold_left (fun w o => snd (wstep w o)) os (winit d).
End Share.
Arguments WCall {A}. Arguments WZero {A}. Arguments WCopy {A}. Arguments WAssign {A}.
