(** The layouts of a .po file and what they denote.  Independent of the
    reader. *)
From Verif Require Import GoStr FileModel PoSpec BlankSpec LitSpec.

(** a string with white space around it *)
Definition spaced (s t : bytes) : Prop := exists a q b, s = a ++ q ++ b /\ blanks a /\ blanks b /\ literal q t.
(** a continuation line: it begins with a double quote *)
Definition continues (l t : bytes) : Prop := starts [DQ] l /\ spaced l t.
(** a field: a keyword, one space, white space, a string, and any number of
    continuation lines; the pieces are joined *)
Inductive field (k : bytes) : bytes -> list bytes -> Prop :=
| F_first s t : spaced s t -> field k t [k ++ SP :: s]
| F_more t ls l t' : field k t ls -> continues l t' -> field k (t ++ t') (ls ++ [l]).
Definition optional (k t : bytes) (ls : list bytes) : Prop := field k t ls \/ (t = [] /\ ls = []).
(** the plural forms, numbered from [i] *)
Inductive forms : nat -> list bytes -> list bytes -> Prop :=
| FS_nil i : forms i [] []
| FS_cons i t ts ls ls' : field (B "msgstr[" ++ dec (N.of_nat i) ++ B "]") t ls -> forms (S i) ts ls' ->
    forms i (t :: ts) (ls ++ ls').
(** the lines of one entry *)
Definition lays (e : entry) (ls : list bytes) : Prop :=
  exists lc li l2 lstr ln,
    ls = e_cmts e ++ lc ++ li ++ l2 ++ lstr ++ ln
    /\ (forall c, In c (e_cmts e) -> starts (B "#") c)
    /\ optional (B "msgctxt") (e_ctxt e) lc
    /\ field (B "msgid") (e_id e) li
    /\ (if e_plural e then field (B "msgid_plural") (e_id2 e) l2 else e_id2 e = [] /\ l2 = [])
    /\ optional (B "msgstr") (e_str e) lstr
    /\ forms 0 (e_strn e) ln
    /\ (lstr = [] \/ ln = []).
(** the lines a .po file may consist of *)
Definition good_line (l : bytes) : Prop :=
  blanks l \/ starts (B "#") l \/ (exists t, continues l t)
  \/ exists k s t, l = k ++ SP :: s /\ spaced s t
       /\ (In k [B "msgctxt"; B "msgid"; B "msgid_plural"; B "msgstr"] \/ exists i, k = B "msgstr[" ++ dec (N.of_nat i) ++ B "]").
