(** Specification of catalogs, independent of the model's maps, caches and
    regular expressions. *)
From Verif Require Import GoStr PluralModel FileModel.
Local Open Scope Z_scope.

(** ** Plural-Forms values: nplurals=<digit>; plural=<expression>; with blanks
    around the tokens; the expression is what follows the blanks behind the
    second equals sign, up to a line break or the final semicolon. *)
Definition blank (c : ascii) : Prop := In c [TAB; NL; "012"%char; CR; SP].
Definition blanks (s : bytes) : Prop := forall c, In c s -> blank c.
Definition ends_line (s : bytes) : Prop := s = [] \/ exists t, s = NL :: t.
Definition forms_value (v : bytes) (d : Z) (exp : bytes) : Prop :=
  exists b1 b2 b3 b4 b5 b6 b7 b8 : bytes,
    v = b1 ++ B "nplurals" ++ b2 ++ B "=" ++ b3 ++ dec_Z d ++ b4 ++ B ";" ++ b5
        ++ B "plural" ++ b6 ++ B "=" ++ b7 ++ exp ++ b8 ++ B ";"
    /\ 0 <= d <= 9
    /\ (forall b, In b [b1; b2; b3; b4; b5; b6; b7; b8] -> blanks b)
    /\ ~ In NL exp
    /\ (forall c t, exp = c :: t -> ~ blank c)
    /\ (exp = [] -> b8 = [])
    /\ ends_line b8.

(** ** Header texts *)
(** the two sides of the first colon-blank of a line *)
Fixpoint cut (l : bytes) : option (bytes * bytes) :=
  match l with
  | [] => None
  | c :: t =>
      if Ascii.eqb c ":" && has_prefix (B " ") t then Some ([], tl t)
      else match cut t with Some (a, b) => Some (c :: a, b) | None => None end
  end.
(** the value of the first line "k: value" *)
Fixpoint first_line (k : bytes) (ls : list bytes) : option bytes :=
  match ls with
  | [] => None
  | l :: r =>
      match cut l with
      | Some (a, b) => if beq (trim_space a) k then Some (trim_space b) else first_line k r
      | None => first_line k r
      end
  end.
Definition header_value (text k : bytes) : option bytes := first_line k (split_byte NL text).

(** ** Histories of a catalog *)
Inductive fop (A : Type) :=
| OAdd (e : entry)
| OHeader (k : bytes)
| OLang
| OX (c i : bytes) (args : list A)
| OXn (c i i2 : bytes) (n : Z) (args : list A).
Arguments OAdd {A}. Arguments OHeader {A}. Arguments OLang {A}. Arguments OX {A}. Arguments OXn {A}.

Section Histories.
Context {A : Type}.
Variable fmt : bytes -> list A -> bytes.
Definition step (f : file) (o : fop A) : file :=
  match o with
  | OAdd e => add_entry f e
  | OHeader k => snd (get_header k f)
  | OLang => snd (lang f)
  | OX c i args => f
  | OXn c i i2 n args => snd (f_xn64 fmt f c i i2 n args)
  end.
Definition run (os : list (fop A)) : file := fold_left step os new_file.
End Histories.

Section Meaning.
Context {A : Type}.
Implicit Types (os : list (fop A)).
(** gettext names a message by its context and its id, joined by the byte 0x04 *)
Definition joined (c i : bytes) : bytes := c ++ EOT :: i.
(** the definition of a message that counts: the last one added of that name *)
Definition defines (c i : bytes) (o : fop A) (e : entry) : Prop :=
  o = OAdd e /\ joined (e_ctxt e) (e_id e) = joined c i.
Definition last_def os (c i : bytes) (e : entry) : Prop :=
  exists os1 o os2, os = os1 ++ o :: os2 /\ defines c i o e
    /\ forall o' e', In o' os2 -> ~ defines c i o' e'.
Definition no_def os (c i : bytes) : Prop := forall o e, In o os -> ~ defines c i o e.
(** the same with exactly this context and id *)
Definition adds (c i : bytes) (o : fop A) (e : entry) : Prop :=
  o = OAdd e /\ e_ctxt e = c /\ e_id e = i.
Definition last_exact os (c i : bytes) (e : entry) : Prop :=
  exists os1 o os2, os = os1 ++ o :: os2 /\ adds c i o e
    /\ forall o' e', In o' os2 -> ~ adds c i o' e'.
Definition no_exact os (c i : bytes) : Prop := forall o e, In o os -> ~ adds c i o e.
(** message names that the separator byte cannot confuse: the name asked for
    has no separator at all, or no context has one *)
Definition names_ok os (c i : bytes) : Prop :=
  ~ In EOT c /\ (~ In EOT i \/ forall e, In (OAdd e) os -> ~ In EOT (e_ctxt e)).

(** when the header text is read: at the first operation that needs it *)
Definition touches os (o : fop A) : Prop :=
  match o with
  | OAdd e => e_id e = []
  | OHeader _ | OLang => True
  | OX _ _ _ => False
  | OXn c i _ _ _ => exists e, last_def os c i e /\ ~ (e_id2 e = [] /\ e_strn e = [])
  end.
Definition quiet os : Prop := forall os1 o os2, os = os1 ++ o :: os2 -> ~ touches os1 o.
(** [header_text os t]: the header text in effect after the history *)
Inductive header_text os : bytes -> Prop :=
| H_now t : quiet os -> ((exists e, last_def os [] [] e /\ t = e_str e) \/ (no_def os [] [] /\ t = [])) -> header_text os t
| H_then os1 o os2 t :
    os = os1 ++ o :: os2 -> quiet os1 -> touches os1 o ->
    ((exists e, last_def (os1 ++ [o]) [] [] e /\ t = e_str e) \/ (no_def (os1 ++ [o]) [] [] /\ t = [])) ->
    header_text os t.
(** the plural rule in effect *)
Definition rule os (d : Z) (exp : bytes) : Prop :=
  exists t v, header_text os t /\ header_value t (B "Plural-Forms") = Some v /\ forms_value v d exp.
End Meaning.

(** English fallback *)
Definition english {A} (fmt : bytes -> list A -> bytes) (i i2 : bytes) (n : Z) (args : list A) (r : bytes) : Prop :=
  ((n = 1 \/ i2 = []) -> r = fmt i args) /\ (n <> 1 -> i2 <> [] -> r = fmt i2 args).
