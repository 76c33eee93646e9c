(** Specifications for .po files, independent of the reader. *)
From Verif Require Import GoStr GoMap FileModel PoModel.

(** *** comments do not count *)
Definition strip (e : entry) : entry :=
  {| e_cmts := []; e_ctxt := e_ctxt e; e_id := e_id e; e_plural := e_plural e;
     e_id2 := e_id2 e; e_str := e_str e; e_strn := e_strn e |}.
(** the same answers to every question about translations *)
Definition same_answers (f f' : file) : Prop :=
  (forall k, option_map strip (mget k (f_entries f)) = option_map strip (mget k (f_entries f')))
  /\ fst (lang f) = fst (lang f')
  /\ (forall k, fst (get_header k f) = fst (get_header k f'))
  /\ forall A (fmt : bytes -> list A -> bytes) c i i2 n args,
       f_x fmt f c i args = f_x fmt f' c i args
       /\ fst (f_xn64 fmt f c i i2 n args) = fst (f_xn64 fmt f' c i i2 n args).
Definition same_result (r r' : pores) : Prop :=
  match r, r' with
  | PoOk f, PoOk f' => same_answers f f'
  | PoErr, PoErr => True
  | _, _ => False
  end.

(** *** places between entries *)
Definition white (l : bytes) : Prop := trim_space l = [].
Definition starts (p l : bytes) : Prop := exists t, l = p ++ t.
(** the last line of [ls] that is neither white nor a continuation line does
    not start a context *)
Definition no_open_context (ls : list bytes) : Prop :=
  forall a l b, ls = a ++ l :: b -> starts (B "msgctxt ") l -> ~ white l ->
    exists l', In l' b /\ ~ white l' /\ ~ starts [DQ] l'.
(** the first line that is not white, if any, is a comment or starts an entry *)
Definition entry_follows (ls : list bytes) : Prop :=
  forall a l b, ls = a ++ l :: b -> (forall x, In x a -> white x) -> ~ white l ->
    starts (B "#") l \/ starts (B "msgctxt ") l \/ starts (B "msgid ") l.

(** *** catalogs that .po and .pot files can express *)
Definition comment_ok (c : bytes) : Prop := starts (B "#") c /\ ~ In NL c /\ ~ In CR c.
Definition po_ok (e : entry) : Prop :=
  (forall c, In c (e_cmts e) -> comment_ok c)
  /\ (e_plural e = true \/ e_id2 e = [])
  /\ (e_str e = [] \/ e_strn e = []).
Definition pot_ok (e : entry) : Prop :=
  (forall c, In c (e_cmts e) -> comment_ok c) /\ (e_plural e = true \/ e_id2 e = []).
(** what a template keeps of an entry *)
Definition template_of (e : entry) : entry :=
  {| e_cmts := e_cmts e; e_ctxt := e_ctxt e; e_id := e_id e; e_plural := e_plural e; e_id2 := e_id2 e;
     e_str := match e_id e with [] => if e_plural e then [] else e_str e | _ => [] end;
     e_strn := if e_plural e then [[]; []] else [] |}.
Definition translated (e : entry) : Prop := e_str e <> [] \/ e_strn e <> [].
(** every entry is filed under its key, once *)
Definition filed (f : file) : Prop :=
  NoDup (keys (f_entries f)) /\ forall k e, In (k, e) (f_entries f) -> k = e_key e.
(** the last translated definition of a key *)
Definition last_translated (es : list entry) (k : bytes) (o : option entry) : Prop :=
  match o with
  | Some e => exists a b, es = a ++ e :: b /\ e_key e = k /\ translated e
                /\ forall x, In x b -> e_key x = k -> ~ translated x
  | None => forall x, In x es -> e_key x = k -> ~ translated x
  end.

(** *** positions in a file *)
(** the text up to the position is empty or ends with a newline *)
Definition line_start (x : bytes) : Prop := x = [] \/ exists x', x = x' ++ [NL].
(** the lines of a file; carriage returns are not part of them *)
Definition file_lines (c : bytes) : list bytes := split_byte NL (filter (fun x => negb (Ascii.eqb x CR)) c).
(** the lines that are not white *)
Inductive same_ink : list bytes -> list bytes -> Prop :=
| SI_nil : same_ink [] []
| SI_left l a b : white l -> same_ink a b -> same_ink (l :: a) b
| SI_right l a b : white l -> same_ink a b -> same_ink a (l :: b)
| SI_both l a b : same_ink a b -> same_ink (l :: a) (l :: b).
