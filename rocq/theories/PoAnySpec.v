(** What a .po file keeps of entries that it cannot express. *)
From Verif Require Import GoStr GoMap FileModel PoModel PoSpec.

(** a comment all of whose lines are white or comment lines *)
Definition harmless (c : bytes) : Prop := forall l, In l (file_lines c) -> white l \/ starts (B "#") l.
(** the lines of comments that are not white *)
Definition comment_lines (l : list bytes) : list bytes :=
  filter (fun x => match trim_space x with [] => false | _ => true end) (concat (map file_lines l)).
(** an entry with one translation and plural forms *)
Definition both (e : entry) : Prop := e_str e <> [] /\ e_strn e <> [].
(** what is read back under the key of the entry *)
Definition kept (e : entry) : entry :=
  {| e_cmts := comment_lines (e_cmts e); e_ctxt := e_ctxt e; e_id := e_id e; e_plural := e_plural e;
     e_id2 := if e_plural e then e_id2 e else [];
     e_str := e_str e; e_strn := match e_str e with [] => e_strn e | _ => [] end |}.
(** what is read back of the forms of an entry with one translation too: an
    entry without an id, that is, a header *)
Definition leftover (e : entry) : entry :=
  {| e_cmts := []; e_ctxt := []; e_id := []; e_plural := false; e_id2 := []; e_str := []; e_strn := e_strn e |}.
(** the header that is read back from a saved [f]: the leftover of an entry
    that no other such entry follows in the file, or else that of [f].  Entries
    with the same sort key are saved in any order; all entries without an id
    have the same one. *)
Definition header_after (f : file) (e' : entry) : Prop :=
  (exists e, In e (vals (f_entries f)) /\ both e /\ e' = leftover e
     /\ forall x, In x (vals (f_entries f)) -> both x -> bltb (sort_key e) (sort_key x) = false)
  \/ exists h, mget (key [] []) (f_entries f) = Some h /\ translated h /\ ~ both h /\ e' = kept h
       /\ forall x, In x (vals (f_entries f)) -> both x -> e_id x = [].
(** what a template keeps *)
Definition kept_template (e : entry) : entry :=
  template_of {| e_cmts := comment_lines (e_cmts e); e_ctxt := e_ctxt e; e_id := e_id e; e_plural := e_plural e;
     e_id2 := if e_plural e then e_id2 e else []; e_str := e_str e; e_strn := e_strn e |}.
