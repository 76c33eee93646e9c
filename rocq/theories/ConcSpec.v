(** Specification of concurrent use of a catalog. *)
From Verif Require Import GoStr GoMap FileModel ConcModel.

Section Spec.
Context {A : Type}.
Variable fmt : bytes -> list A -> bytes.
Variable f : file.
(** what a call answers when nothing else is going on *)
Definition alone (o : @call A) : result :=
  match o with
  | CLang => RText (fst (lang f))
  | CHeader name => RHeader (fst (get_header name f))
  | CX c i args => RText (f_x fmt f c i args)
  | CXN c i i2 n args => match fst (f_xn64 fmt f c i i2 n args) with XStr s => RText s | XPanic => RPanics end
  end.
(** the answers a goroutine should get: those of its calls, up to a panic *)
Inductive answers : list (@call A) -> list result -> Prop :=
| An_nil : answers [] []
| An_panic o os : alone o = RPanics -> answers (o :: os) [RPanics]
| An_cons o os rs : alone o <> RPanics -> answers os rs -> answers (o :: os) (alone o :: rs).
End Spec.
(** two goroutines are about to touch the same field, one of them writing *)
Definition writes_headers {R} (p : prog R) : Prop := match p with WriteHeaders _ _ => True | _ => False end.
Definition writes_plural {R} (p : prog R) : Prop := match p with WritePlural _ _ => True | _ => False end.
Definition uses_headers {R} (p : prog R) : Prop := match p with WriteHeaders _ _ | ReadHeaders _ => True | _ => False end.
Definition uses_plural {R} (p : prog R) : Prop := match p with WritePlural _ _ | ReadPlural _ => True | _ => False end.
Definition race {R} (p q : prog R) : Prop :=
  writes_headers p /\ uses_headers q \/ writes_plural p /\ uses_plural q.
Definition racy {R} (ps : list (prog R)) : Prop :=
  exists a p b q c, ps = a ++ p :: b ++ q :: c /\ (race p q \/ race q p).
(** a goroutine has finished *)
Definition finished {R} (p : prog R) : Prop := match p with Ret _ => True | _ => False end.
