(** What it means that one error is a cause of another.  Independent of the
    search in ErrModel. *)
From Verif Require Import GoStr GoFmt FmtSpec ErrModel.

(** [part_of d e]: [d] is [e] or is reached from it by unwrapping *)
Inductive part_of : err -> err -> Prop :=
| P_self e : part_of e e
| P_kid d k id m f kids : In k kids -> part_of d k -> part_of d (Err id m f kids).
(** [sees cmp e t]: [e] has [t] among its causes, or one of its causes claims to
    be [t] by its own method *)
Definition sees (cmp : bool) (e t : err) : Prop :=
  exists d, part_of d e /\ ((cmp = true /\ e_ident d = e_ident t) \/ e_meth d (e_ident t) = true).
(** the same for a nil error, which has no causes *)
Definition sees_opt (cmp : bool) (e : option err) (t : err) : Prop := exists x, e = Some x /\ sees cmp x t.

(** [under_w out e]: the output [out] of a format contains [e] printed with the
    verb w *)
Definition under_w {A} (out : list (chunk (val A))) (e : err) : Prop :=
  exists fl w p, In (CArg {| sp_flags := fl; sp_wid := w; sp_prec := p; sp_verb := 119 |} (VOther (VErr e))) out.

(** Nestings of wrappings.  The formats are well formed and have the verbs for
    their arguments. *)
Inductive nest (A : Type) :=
| NLeaf (e : err)
| NErrorf (ps : list piece) (args : list (arg (val A)))
| NWrapf (x : nest A) (ps : list piece) (args : list (arg (val A)))
| NSecondary (x y : nest A).
Arguments NLeaf {A}. Arguments NErrorf {A}. Arguments NWrapf {A}. Arguments NSecondary {A}.
Fixpoint leaves {A} (x : nest A) : list err :=
  match x with
  | NLeaf e => [e]
  | NErrorf _ _ => []
  | NWrapf x _ _ => leaves x
  | NSecondary x y => leaves x ++ leaves y
  end.
(** formats without the verb w (the code under study has no others) whose verbs
    use up the arguments *)
Definition plain_format {A} (as_int : arg (val A) -> option Z) (ps : list piece) (args : list (arg (val A))) : Prop :=
  pieces_ok ps /\ (forall d, In (PDir d) ps -> d_verb d <> B "w") /\ exists out, all_means as_int args ps 0 out (length args).
Fixpoint plain_nest {A} (as_int : arg (val A) -> option Z) (x : nest A) : Prop :=
  match x with
  | NLeaf _ => True
  | NErrorf ps args => plain_format as_int ps args
  | NWrapf x ps args => plain_nest as_int x /\ plain_format as_int ps args
  | NSecondary x y => plain_nest as_int x /\ plain_nest as_int y
  end.
(** evaluation: the error and the next free identity *)
Fixpoint nest_eval {A} print (as_int : arg (val A) -> option Z) extra (next : nat) (x : nest A) : err * nat :=
  match x with
  | NLeaf e => (e, next)
  | NErrorf ps args => (Errorf print as_int extra next (format_text ps) args, S next)
  | NWrapf x ps args =>
      let (e, n) := nest_eval print as_int extra next x in
      (Wrapf print as_int extra n (Some e) (format_text ps) args, S n)
  | NSecondary x y =>
      let (e, n) := nest_eval print as_int extra next x in
      let (e', n') := nest_eval print as_int extra n y in
      (WithSecondaryError print as_int extra n' (Some e) (Some e'), S n')
  end.
