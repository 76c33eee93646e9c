(** The order of the entries of a saved catalog. *)
From Coq Require Import Permutation.
From Verif Require Import GoStr GoMap FileModel PoModel PoSpec XtSpec.

(** lexicographic order of bytes *)
Inductive lex_less : bytes -> bytes -> Prop :=
| LL_end c s : lex_less [] (c :: s)
| LL_here c d s t : (code c < code d)%N -> lex_less (c :: s) (d :: t)
| LL_later c s t : lex_less s t -> lex_less (c :: s) (c :: t).
(** the pieces of a text between spaces and colons *)
Definition whole (w : bytes) : Prop := ~ In SP w /\ ~ In ":"%char w.
Inductive pieces : bytes -> list bytes -> Prop :=
| PC_last w : whole w -> pieces w [w]
| PC_more w c s ws : whole w -> c = SP \/ c = ":"%char -> pieces s ws -> pieces (w ++ c :: s) (w :: ws).
(** a text to the right in ten columns, or all of it if it is longer *)
Definition right_in_ten (x t : bytes) : Prop :=
  exists k, t = repeat SP k ++ x /\ (k = 0 \/ length t = 10)%nat /\ (10 <= length t)%nat.
(** a number counts by its value, any other piece as it is *)
Inductive piece_text : bytes -> bytes -> Prop :=
| PT_num w z ds t : numeral w z -> (0 <= z)%Z -> ds = dec (Z.to_N z) -> right_in_ten ds t -> piece_text w t
| PT_neg w z ds t : numeral w z -> (z < 0)%Z -> ds = "-"%char :: dec (Z.to_N (- z)) -> right_in_ten ds t -> piece_text w t
| PT_word w : (forall z, ~ numeral w z) -> piece_text w w.
(** only references count among the comments *)
Inductive comment_text : bytes -> bytes -> Prop :=
| CT_ref s ws ts : pieces s ws -> Forall2 piece_text ws ts -> comment_text (B "#:" ++ s) (B "#:" ++ concat ts)
| CT_other c : ~ starts (B "#:") c -> comment_text c [].
(** what an entry is ordered by: nothing if it has no id, and otherwise its
    references, its context and its id *)
Inductive order_text : entry -> bytes -> Prop :=
| OT_header e : e_id e = [] -> order_text e []
| OT_entry e ts : e_id e <> [] -> Forall2 comment_text (e_cmts e) ts ->
    order_text e (concat ts ++ e_ctxt e ++ EOT :: e_id e).
(** no entry stands before one that should come first *)
Definition in_order (es : list entry) : Prop :=
  forall a x b y c tx ty, es = a ++ x :: b ++ y :: c -> order_text x tx -> order_text y ty -> ~ lex_less ty tx.
(** two entries with the same order text *)
Definition tied (e e' : entry) : Prop := exists t, order_text e t /\ order_text e' t.
(** the two strings of an entry in a .mo file *)
Definition stored_id (e : entry) (s : bytes) : Prop :=
  exists a b, (e_ctxt e = [] /\ a = [] \/ e_ctxt e <> [] /\ a = e_ctxt e ++ [EOT])
    /\ (e_plural e = false /\ b = [] \/ e_plural e = true /\ b = NUL :: e_id2 e) /\ s = a ++ e_id e ++ b.
Definition stored_str (e : entry) (s : bytes) : Prop :=
  e_strn e = [] /\ s = e_str e \/ e_strn e <> [] /\ s = join [NUL] (e_strn e).
