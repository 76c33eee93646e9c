(** What fmt.Sprintf writes for a format string (FmtSpec), as text, also where
    arguments are missing, indexes point nowhere or a star has no number: "Format errors" in
    the documentation of package fmt.  Independent of the machine in GoFmt. *)
From Coq Require Import List ZArith NArith Bool Ascii.
From Verif Require Import GoStr GoFmt FmtSpec.
Import ListNotations.
Local Open Scope Z_scope.

(** a directive that is not finished: its verb is missing *)
Definition open_text (d : dir) : bytes :=
  B "%" ++ d_flags d ++ wid_text (d_wid d) ++ prec_text (d_prec d) ++ ix_text (d_ix d).

Section Text.
Context {A : Type}.
Variable print : spec -> arg A -> bytes.
Variable as_int : arg A -> option Z.
Variable args : list (arg A).
(** one argument: strings under a plain %s and numbers under a plain %d as they are *)
Definition plain_spec (verb : N) : spec := {| sp_flags := []; sp_wid := None; sp_prec := None; sp_verb := verb |}.
Inductive arg_text : spec -> arg A -> bytes -> Prop :=
| AT_string s : arg_text (plain_spec 115) (VStr s) s
| AT_number z : arg_text (plain_spec 100) (VInt z) (dec_Z z)
| AT_other d v : (forall s, (d, v) <> (plain_spec 115, VStr s)) -> (forall z, (d, v) <> (plain_spec 100, VInt z)) -> arg_text d v (print d v).
(** [points ix k k' good]: the argument an optional index designates, if it exists *)
Inductive points : option positive -> nat -> nat -> bool -> Prop :=
| PT_next k : points None k k true
| PT_index p k : (Pos.to_nat p <= length args)%nat -> points (Some p) k (Pos.to_nat p - 1) true
| PT_nowhere p k : (length args < Pos.to_nat p)%nat -> points (Some p) k k false.
(** [star k z k']: the number a star takes *)
Inductive star : nat -> option Z -> nat -> Prop :=
| ST_number k v z : nth_error args k = Some v -> as_int v = Some z -> Z.abs z <= 1000000 -> star k (Some z) (S k)
| ST_other k v : nth_error args k = Some v -> (forall z, as_int v = Some z -> 1000000 < Z.abs z) -> star k None (S k)
| ST_missing k : (length args <= k)%nat -> star k None k.
(** width and precision: what is complained about, the value, the next argument, whether the index was good *)
Inductive width_text : width -> nat -> bytes -> option Z -> nat -> bool -> Prop :=
| WT_none k : width_text WNone k [] None k true
| WT_number n k : width_text (WNum n) k [] (Some (Zpos n)) k true
| WT_star ix k k1 g z k2 : points ix k k1 g -> star k1 (Some z) k2 -> width_text (WStar ix) k [] (Some z) k2 g
| WT_bad ix k k1 g k2 : points ix k k1 g -> star k1 None k2 -> width_text (WStar ix) k (B "%!(BADWIDTH)") None k2 g.
Inductive precision_text : precision -> nat -> bytes -> option Z -> nat -> bool -> Prop :=
| QT_none k : precision_text PNone k [] None k true
| QT_dot k : precision_text PDot k [] (Some 0) k true
| QT_number ds v k : digits_val 0 ds = Some v -> precision_text (PNum ds) k [] (Some (Z.of_N v)) k true
| QT_star ix k k1 g z k2 : points ix k k1 g -> star k1 (Some z) k2 -> 0 <= z -> precision_text (PStar ix) k [] (Some z) k2 g
| QT_bad ix k k1 g z k2 : points ix k k1 g -> star k1 z k2 -> (forall n, z = Some n -> n < 0) ->
    precision_text (PStar ix) k (B "%!(BADPREC)") None k2 g.
(** the verb; [g]: all indexes were good *)
Inductive verb_text : dir -> option Z -> option Z -> nat -> bool -> bytes -> nat -> Prop :=
| VT_percent d w p k g : d_verb d = B "%" -> verb_text d w p k g (B "%") k
| VT_index d w p k : d_verb d <> B "%" -> verb_text d w p k false (B "%!" ++ encode_rune (verb_rune (d_verb d)) ++ B "(BADINDEX)") k
| VT_missing d w p k : d_verb d <> B "%" -> (length args <= k)%nat ->
    verb_text d w p k true (B "%!" ++ encode_rune (verb_rune (d_verb d)) ++ B "(MISSING)") k
| VT_argument d w p k v t : d_verb d <> B "%" -> nth_error args k = Some v ->
    arg_text {| sp_flags := d_flags d; sp_wid := w; sp_prec := p; sp_verb := verb_rune (d_verb d) |} v t ->
    verb_text d w p k true t (S k).
(** a directive: what it writes and the argument the next one takes *)
Inductive directive_text : dir -> nat -> bytes -> nat -> Prop :=
| DT_directive d k t1 w k1 g1 t2 p k2 g2 k3 g3 t3 k4 : width_text (d_wid d) k t1 w k1 g1 -> precision_text (d_prec d) k1 t2 p k2 g2 ->
    points (d_ix d) k2 k3 g3 -> verb_text d w p k3 (g1 && g2 && g3) t3 k4 -> directive_text d k (t1 ++ t2 ++ t3) k4.
Inductive writes : list piece -> nat -> bytes -> nat -> Prop :=
| WR_end k : writes [] k [] k
| WR_text s ps k t k' : writes ps k t k' -> writes (PText s :: ps) k (s ++ t) k'
| WR_directive d ps k t1 k1 t2 k2 : directive_text d k t1 k1 -> writes ps k1 t2 k2 -> writes (PDir d :: ps) k (t1 ++ t2) k2.
End Text.
