(** Specification of zero values and copies of handles: by the history of the program. *)
From Coq Require Import List.
From Verif Require Import GoStr GoMap FileModel PoModel MoModel TransModel TransSpec ZeroModel.
Import ListNotations.

Section Histories.
Context {A : Type}.
Variable fmt : bytes -> list A -> bytes.
Variable norm : bytes -> bytes.
Variable d0 : bytes.
Notation zop := (@zop A).
Implicit Types (os : list zop) (o : zop).
(** the state after a history, the handles and translations there are *)
Definition now os : @state A := z_state (zrun fmt norm d0 os).
Definition handles os : nat := length (s_ts (now os)).
Definition translations os : nat := length (s_trs (now os)).
(** the program uses the pointers it has *)
Definition proper os : Prop := forall os1 o os2, os = os1 ++ o :: os2 -> zknown (zrun fmt norm d0 os1) o.

(** the handle still has no place for domains: it is a zero value or a copy of one, and neither
    cleared nor assigned since *)
Inductive unmade : list zop -> nat -> Prop :=
| U_zero os : unmade (os ++ [ZZero]) (handles os)
| U_copy os h : unmade os h -> unmade (os ++ [ZCopy h]) (handles os)
| U_assign os h src : unmade os src -> unmade (os ++ [ZAssign h src]) h
| U_stay os o h : unmade os h -> o <> ZCall (OClear h) -> (forall src, o <> ZAssign h src) -> unmade (os ++ [o]) h.
(** a translation that was declared as a zero value *)
Definition unmade_tr os (t : nat) : Prop := exists os1 os2, os = os1 ++ ZZeroTr :: os2 /\ t = translations os1.
(** the file says of which language it is *)
Definition has_lang (f : file) : Prop := fst (lang f) <> [].
(** when a call panics *)
Definition panics os o : Prop :=
  match o with
  | ZCall (OBind h _ wm wp) => unmade os h /\ (some_loaded (B ".mo") wm \/ some_loaded (B ".po") wp)
  | ZCall (OAdd t x) => unmade_tr os t /\ language_of (now os) x <> []
  | ZCall (OLoadPo t c) => unmade_tr os t /\ exists f, read_po c = PoOk f /\ has_lang f
  | ZCall (OLoadMo t c) => unmade_tr os t /\ exists f, read_mo c = MoOk f /\ has_lang f
  | ZCall (OLoadFS t wm wp) => unmade_tr os t /\ exists f, In f (catalogs (B ".mo") wm ++ catalogs (B ".po") wp) /\ has_lang f
  | _ => False
  end.

(** which domains a handle has: those of the table made at call [fst id] for handle [snd id];
    a table is made for a new handle and by ClearDomains, and passed on by copying *)
Inductive table : list zop -> nat -> nat * nat -> Prop :=
| T_start : table [] 0 (0, 0)
| T_made os o h : handles os <= h < handles (os ++ [o]) -> (forall src, o <> ZCopy src) -> table (os ++ [o]) h (S (length os), h)
| T_clear os h : h < handles os -> table (os ++ [ZCall (OClear h)]) h (S (length os), h)
| T_copy os h id : table os h id -> table (os ++ [ZCopy h]) (handles os) id
| T_assign os h src id : h < handles os -> table os src id -> table (os ++ [ZAssign h src]) h id
| T_stay os o h id : table os h id -> o <> ZCall (OClear h) -> (forall src, o <> ZAssign h src) -> table (os ++ [o]) h id.
(** the call changes the handle [h] or the table [id] *)
Definition touches os (h : nat) (id : nat * nat) o : Prop :=
  match o with
  | ZCall (OSetDomain h' _) | ZCall (OSetLocale h' _ _) | ZCall (OSetSource h' _) | ZCall (OClear h') | ZAssign h' _ => h' = h
  | ZCall (OBind h' _ _ _) | ZCall (ORemove h' _) => h' = h \/ table os h' id
  | ZCall o => direct o
  | _ => False
  end.
End Histories.
