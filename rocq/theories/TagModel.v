(** Model of /repo/tag.go: the cache of language tags under concurrent calls.
    [sync.Map] is linearizable: [Load] and [Store] are atomic steps. *)
From Verif Require Import GoStr GoMap.

Section Tag.
Context {T : Type}.
(** [language.Make] *)
Variable make : bytes -> T.

(** a call of [Tag]: before [Load] (line 12), between [Load] and [Store]
    (lines 15, 16), returned *)
(* tag.go:11-18 *)
Inductive call := Start (l : bytes) | Miss (l : bytes) (t : T) | Done (l : bytes) (t : T).
(* tag.go:9 *)
Record conf := { cache : gmap T; calls : list call }.
(** line 12-17: one atomic step of one call *)
Definition call_step (m : gmap T) (c : call) : gmap T * call :=
  match c with
  | Start l => match mget l m with Some t => (m, Done l t) | None => (m, Miss l (make l)) end
  | Miss l t => (mput l t m, Done l t)
  | Done l t => (m, Done l t)
  end.
(* no counterpart in /repo: the call that made a step *)
Fixpoint replace {X} (n : nat) (x : X) (l : list X) : list X :=
  match l, n with
  | [], _ => []
  | _ :: r, O => x :: r
  | y :: r, S n' => y :: replace n' x r
  end.
(** the scheduler lets any call make a step, and calls start at any time *)
(* no counterpart in /repo: the Go scheduler, any number of calls of tag.go:11 *)
Inductive sched : conf -> conf -> Prop :=
| S_call c l : sched c {| cache := cache c; calls := calls c ++ [Start l] |}
| S_step c i x : nth_error (calls c) i = Some x ->
    sched c {| cache := fst (call_step (cache c) x); calls := replace i (snd (call_step (cache c) x)) (calls c) |}.
(* no counterpart in /repo: the executions from the empty cache of tag.go:9 *)
Inductive execution : conf -> Prop :=
| E_init : execution {| cache := []; calls := [] |}
| E_step c c' : execution c -> sched c c' -> execution c'.
(** lines 20-25, calls in sequence: each call runs alone *)
Definition tag (m : gmap T) (l : bytes) : gmap T * T :=
  match mget l m with Some t => (m, t) | None => (mput l (make l) m, make l) end.
(* tag.go:20-25 *)
Fixpoint tags (m : gmap T) (ls : list bytes) : gmap T * list T :=
  match ls with
  | [] => (m, [])
  | l :: r => let (m, t) := tag m l in let (m, ts) := tags m r in (m, t :: ts)
  end.
End Tag.
