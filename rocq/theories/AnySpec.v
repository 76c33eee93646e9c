(** Format strings of any form.  Independent of the scanner in GoFmt. *)
From Verif Require Import GoStr GoFmt.

(** what can stand between a per cent sign and an index in brackets: flags,
    numbers, stars, dots and other indexes *)
Inductive inside : bytes -> Prop :=
| IN_nil : inside []
| IN_char c m : In c (B "#+- 0123456789.*") -> inside m -> inside (c :: m)
| IN_index i m : ~ In "]"%char i -> inside m -> inside ("["%char :: i ++ "]"%char :: m).
(** every bracket opened in a directive is closed, and "[]" is not the end *)
Definition closes (s : bytes) : Prop :=
  forall a m b, s = a ++ "%"%char :: m ++ "["%char :: b -> inside m -> In "]"%char b /\ (2 <= length b)%nat.
(** a directive of [s] names argument [k], counted from one, in brackets *)
Definition names (s : bytes) (k : N) : Prop :=
  exists a m i b, s = a ++ "%"%char :: m ++ "["%char :: i ++ "]"%char :: b /\ inside m /\ ~ In "]"%char i /\ digits_val 0 i = Some k.
(** what package fmt complains about, apart from surplus arguments *)
Definition complains {A} (c : chunk A) : Prop :=
  match c with CBadWidth | CBadPrec | CNoVerb | CBadIndex _ | CMissing _ => True | _ => False end.
(** without the marker of surplus arguments *)
Definition no_marker {A} (o : list (chunk A)) : list (chunk A) :=
  filter (fun c => match c with CExtra _ => false | _ => true end) o.
