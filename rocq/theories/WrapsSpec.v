(** Which errors a format string takes under the verb w, also where arguments
    are missing, indexes point nowhere or a star has no number, and the argument
    the text after it starts with.  Independent of the machine in GoFmt. *)
From Coq Require Import List ZArith NArith Bool Ascii.
From Verif Require Import GoStr GoFmt FmtSpec FmtTextSpec ErrModel.
Import ListNotations.

Section Wraps.
Context {A : Type}.
Variable as_int : arg (val A) -> option Z.
Variable args : list (arg (val A)).
(** the verb; [g]: all indexes were good *)
Inductive verb_takes : dir -> nat -> bool -> list err -> nat -> Prop :=
| VK_percent d k g : d_verb d = B "%" -> verb_takes d k g [] k
| VK_index d k : d_verb d <> B "%" -> verb_takes d k false [] k
| VK_missing d k : d_verb d <> B "%" -> (length args <= k)%nat -> verb_takes d k true [] k
| VK_error d k e : d_verb d = B "w" -> nth_error args k = Some (VOther (VErr e)) -> verb_takes d k true [e] (S k)
| VK_value d k v : d_verb d = B "w" -> nth_error args k = Some v -> (forall e, v <> VOther (VErr e)) -> verb_takes d k true [] (S k)
| VK_printed d k v : d_verb d <> B "%" -> d_verb d <> B "w" -> nth_error args k = Some v -> verb_takes d k true [] (S k).
Inductive directive_takes : dir -> nat -> list err -> nat -> Prop :=
| DK_directive d k t1 w k1 g1 t2 p k2 g2 k3 g3 o k4 : width_text as_int args (d_wid d) k t1 w k1 g1 ->
    precision_text as_int args (d_prec d) k1 t2 p k2 g2 -> points args (d_ix d) k2 k3 g3 ->
    verb_takes d k3 (g1 && g2 && g3) o k4 -> directive_takes d k o k4.
(** [takes ps k ws k']: from argument [k] on, the pieces [ps] take [ws] under
    the verb w and leave off at argument [k'] *)
Inductive takes : list piece -> nat -> list err -> nat -> Prop :=
| TK_end k : takes [] k [] k
| TK_text s ps k ws k' : takes ps k ws k' -> takes (PText s :: ps) k ws k'
| TK_directive d ps k w1 k1 w2 k2 : directive_takes d k w1 k1 -> takes ps k1 w2 k2 -> takes (PDir d :: ps) k (w1 ++ w2) k2.
End Wraps.
