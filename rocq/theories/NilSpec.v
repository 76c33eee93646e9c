(** Specification of calls on nil pointers. *)
From Verif Require Import GoStr GoMap FileModel PoModel MoModel TransModel TransSpec HandleConcModel HandleConcSpec GlobalModel NilModel.

Section Spec.
Context {A : Type}.
Variable fmt : bytes -> list A -> bytes.
Variable norm : bytes -> bytes.
Notation state := (@state A).
Implicit Types s : state.

(** the handle a call needs: its receiver; for a function of the package, and for
    the method MostMatchLocale whatever its receiver, the global handle *)
Definition needs (q : @ncall A) : option href :=
  match q with
  | NCall (QNew _) | NSetGlobal _ => None
  | NCall QGlobal | NCall (QWith _ _) | NCall (QMost _) | NCall (QUserLang _) | NLoad _ _ => Some HGlob
  | NCall (QD h _) | NCall (QL h _ _) | NCall (QSetDomain h _) | NCall (QSetLocale h _ _) | NCall (QSetSource h _)
  | NCall (QBind h _ _ _) | NCall (QRemove h _) | NCall (QClear h) | NCall (QHas h _) | NCall (QDomain h) | NCall (QLocale h)
  | NCall (QSource h) | NCall (QUsed h) | NCall (QX h _ _ _) | NCall (QXN h _ _ _ _ _)
  | NCall (QDomains h) | NCall (QLocales h) | NGet h _ | NGetOrNoop h _ => Some h
  end.
(** the calls that return before they come to it: RemoveDomain(""), BindFS of a
    file system in which nothing is loaded without error, GetUserLang of a
    request with the cookie *)
Definition spared (q : @ncall A) : Prop :=
  match q with
  | NCall (QRemove _ []) | NCall (QUserLang (Some _)) => True
  | NCall (QBind _ _ wm wp) => ~ (some_loaded (B ".mo") wm \/ some_loaded (B ".po") wp)
  | _ => False
  end.
(** the calls that panic when [z] is nil *)
Definition npanics (z : nat) s (own : list nat) (q : @ncall A) : Prop :=
  (exists h, needs q = Some h /\ target s own h = z) /\ ~ spared q.

(** what a call does that does not: the functions of TransModel.v *)
Definition done s (own : list nat) (q : @ncall A) : state * (nans * list nat) :=
  match q with
  | NCall q => match one fmt norm s own q with (a, s', own') => (s', (NA a, own')) end
  | NSetGlobal h => (set_global s (target s own h), (NA ANone, own))
  | NGet h dom => (s, (NTr (h_get s (target s own h) dom), own))
  | NGetOrNoop h dom => (s, (NTr (Some (h_get_or_noop s (target s own h) dom)), own))
  | NLoad wm wp => (g_load norm s wm wp, (NA ANone, own))
  end.

(** ** nil [*Translation] *)
(** the state with one more, empty, translation, and its number *)
Definition with_empty s : state := snd (new_translation s []).
Definition empty_of s : nat := length (s_trs s).
(** a call on a nil translation [r], compared with the same call on an empty
    translation, which returned [b] and left [s']: it panics exactly if that put
    a translator into it, and otherwise it returns the same *)
Definition as_on_empty {X} s (r : @nres A X) (b : X) (s' : state) : Prop :=
  match r with
  | NPanic _ => tr_langs (the_tr s' (empty_of s)) <> []
  | NOk x _ => tr_langs (the_tr s' (empty_of s)) = [] /\ x = b
  end.
End Spec.
