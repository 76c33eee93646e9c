(** Specification of goroutines that pass slices of arguments. *)
From Verif Require Import GoStr GoFmt SliceModel ArgsModel.

Section Spec.
Context {A : Type}.
Variable fmt : bytes -> list (arg A) -> bytes.
(** the elements an operation looks at, and the one it may change: a call with
    arguments looks at them and, if the slice has room, changes the element behind *)
Definition looks (o : @aop A) (p : cell) : Prop :=
  match o with
  | OFormat _ s => fst p = sl_arr s /\ sl_off s <= snd p < sl_off s + sl_len s
  | OSet _ _ => False
  | OGet q => p = q
  end.
Definition changes (o : @aop A) (p : cell) : Prop :=
  match o with
  | OFormat _ s => 0 < sl_len s < sl_cap s /\ p = (sl_arr s, sl_off s + sl_len s)
  | OSet q _ => p = q
  | OGet _ => False
  end.
(** no element that one goroutine changes is used by another one *)
Definition apart (gs : list (list (@aop A))) : Prop :=
  forall i j os os' o o' p, i <> j -> nth_error gs i = Some os -> nth_error gs j = Some os' -> In o os -> In o' os' ->
    changes o p -> ~ looks o' p /\ ~ changes o' p.
(** every operation is one on the memory there is *)
Definition within (h : heap (arg A)) (o : @aop A) : Prop :=
  match o with
  | OFormat _ s => slice_ok h s
  | OSet p _ | OGet p => cell_at h p <> None
  end.
(** what a goroutine gets when nothing else is going on; the effect on the
    element behind the slice included *)
Definition behind (h : heap (arg A)) (s : slice) : heap (arg A) :=
  if Nat.ltb 0 (sl_len s) && Nat.ltb (sl_len s) (sl_cap s) then set_cell h (sl_arr s, sl_off s + sl_len s) (VStr []) else h.
Fixpoint alone (h : heap (arg A)) (os : list (@aop A)) : list (@aans A) :=
  match os with
  | [] => []
  | OFormat f s :: os => NText (fmt f (elems h s)) :: alone (behind h s) os
  | OSet p v :: os => NDone :: alone (set_cell h p v) os
  | OGet p :: os => match cell_at h p with Some v => NVal v :: alone h os | None => [] end
  end.
End Spec.
(** two goroutines are about to use the same element, one of them changing it *)
Definition writes_cell {A R} (p : @aprog A R) (x : cell) : Prop := match p with AWrite y _ _ => x = y | _ => False end.
Definition uses_cell {A R} (p : @aprog A R) (x : cell) : Prop := match p with AWrite y _ _ | ARead y _ => x = y | _ => False end.
Definition arg_race {A R} (ps : list (@aprog A R)) : Prop :=
  exists i j p q x, i <> j /\ nth_error ps i = Some p /\ nth_error ps j = Some q /\ writes_cell p x /\ uses_cell q x.
