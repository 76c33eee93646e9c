(** Specification of copies of translations: by the history of the program. *)
From Coq Require Import List.
From Verif Require Import GoStr GoMap FileModel PoModel MoModel TransModel TransSpec ZeroSpec ShareModel.
Import ListNotations.

Section Histories.
Context {A : Type}.
Variable fmt : bytes -> list A -> bytes.
Variable norm : bytes -> bytes.
Variable d0 : bytes.
Notation wop := (@wop A).
Implicit Types (os : list wop) (o : wop).
(** the state after a history, the handles and translations there are *)
Definition seen os : @state A := flat (wrun fmt norm d0 os).
Definition many os : nat := length (s_trs (seen os)).
(** the program uses the pointers it has *)
Definition legal os : Prop := forall os1 o os2, os = os1 ++ o :: os2 -> wknown (wrun fmt norm d0 os1) o.

(** translation [t] has the languages made with translation [c]: a translation is made with languages
    of its own, and copying and assigning pass them on *)
Inductive langs_of : list wop -> nat -> nat -> Prop :=
| L_start : langs_of [] 0 0
| L_made os o t : many os <= t < many (os ++ [o]) -> o <> WZero -> (forall src, o <> WCopy src) -> langs_of (os ++ [o]) t t
| L_copy os t c : langs_of os t c -> langs_of (os ++ [WCopy t]) (many os) c
| L_assign os t src c : t < many os -> langs_of os src c -> langs_of (os ++ [WAssign t src]) t c
| L_stay os o t c : langs_of os t c -> (forall src, o <> WAssign t src) -> langs_of (os ++ [o]) t c.
(** a zero value or a copy of one, not assigned since *)
Inductive bare : list wop -> nat -> Prop :=
| B_zero os : bare (os ++ [WZero]) (many os)
| B_copy os t : bare os t -> bare (os ++ [WCopy t]) (many os)
| B_assign os t src : t < many os -> bare os src -> bare (os ++ [WAssign t src]) t
| B_stay os o t : bare os t -> (forall src, o <> WAssign t src) -> bare (os ++ [o]) t.
(** the call adds to the languages made with [c] *)
Definition adds os (c : nat) o : Prop :=
  match o with
  | WCall (OAdd t _) | WCall (OLoadPo t _) | WCall (OLoadMo t _) | WCall (OLoadFS t _ _) => langs_of os t c
  | _ => False
  end.
(** ... a translator for language [l] *)
Definition adds_lang os (c : nat) (l : bytes) o : Prop :=
  adds os c o /\ match o with WCall o => exists t, puts norm t l (seen os) o | _ => False end.
(** when a call panics *)
Definition fails os o : Prop :=
  match o with
  | WCall (OAdd t x) => bare os t /\ language_of (seen os) x <> []
  | WCall (OLoadPo t c) => bare os t /\ exists f, as_po c = Some f /\ fst (lang f) <> []
  | WCall (OLoadMo t c) => bare os t /\ exists f, as_mo c = Some f /\ fst (lang f) <> []
  | WCall (OLoadFS t wm wp) => bare os t /\ exists f, In f (catalogs (B ".mo") wm ++ catalogs (B ".po") wp) /\ fst (lang f) <> []
  | _ => False
  end.
(** the calls that load catalogs, and the catalogs they read, in the order of reading *)
Definition read_by (o : @op A) : list file :=
  match o with
  | OLoadPo _ c => match as_po c with Some f => [f] | None => [] end
  | OLoadMo _ c => match as_mo c with Some f => [f] | None => [] end
  | OLoadFS _ wm wp => catalogs (B ".mo") wm ++ catalogs (B ".po") wp
  | _ => []
  end.
Definition loading (o : @op A) : Prop := match o with OLoadPo _ _ | OLoadMo _ _ | OLoadFS _ _ _ => True | _ => False end.
End Histories.
