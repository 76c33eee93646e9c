(** Specification of contexts of any kind: by layers. *)
From Coq Require Import List.
From Verif Require Import GoStr GoMap FileModel PoModel MoModel TransModel TransSpec CtxModel.
Import ListNotations.

(** the context is [base] with the settings [sets] on top, the latest first *)
Inductive layers : xctx -> list (ckey * cval) -> xctx -> Prop :=
| L_nil : layers XNil [] XNil
| L_foreign f : layers (XForeign f) [] (XForeign f)
| L_value c k v sets base : layers c sets base -> layers (XValue c k v) ((k, v) :: sets) base
| L_wrap c sets base : layers c sets base -> layers (XWrap c) sets base.
(** what asking for a key gives: the latest setting, else what the context below says *)
Definition answer (c : xctx) (k : ckey) (r : told) : Prop :=
  exists sets base, layers c sets base /\
    ((exists a b v, sets = a ++ (k, v) :: b /\ (forall w, ~ In (k, w) a) /\ r = TValue v)
     \/ ((forall w, ~ In (k, w) sets) /\ ((base = XNil /\ r = TPanic) \/ exists f, base = XForeign f /\ r = f k))).
(** the contexts of TransModel *)
Fixpoint embed (c : ctx) : xctx :=
  match c with CBackground => XForeign (fun _ => TNil) | CValue c k v => XValue (embed c) k v | CWrap c => XWrap (embed c) end.
(** the language or domain an answer names *)
Definition names (r : told) (o : option bytes) : Prop :=
  match o with Some s => r = TValue (VString s) | None => r = TNil \/ exists n, r = TValue (VOther n) end.
