(** Format strings by the documentation of package fmt: text and directives
    %[flags][width][.precision][[index]]verb, where width and precision are
    numbers or stars, each star possibly behind an index of its own.
    Independent of the scanner in GoFmt. *)
From Verif Require Import GoStr GoFmt.
Local Open Scope Z_scope.

Inductive width := WNone | WNum (n : positive) | WStar (ix : option positive).
Inductive precision := PNone | PDot | PNum (ds : bytes) | PStar (ix : option positive).
Record dir := { d_flags : bytes; d_wid : width; d_prec : precision; d_ix : option positive; d_verb : bytes }.
Inductive piece := PText (s : bytes) | PDir (d : dir).

(** what is written in the format string *)
Definition ix_text (ix : option positive) : bytes :=
  match ix with Some p => B "[" ++ dec_Z (Zpos p) ++ B "]" | None => [] end.
Definition wid_text (w : width) : bytes :=
  match w with WNone => [] | WNum n => dec_Z (Zpos n) | WStar ix => ix_text ix ++ B "*" end.
Definition prec_text (p : precision) : bytes :=
  match p with PNone => [] | PDot => B "." | PNum ds => B "." ++ ds | PStar ix => B "." ++ ix_text ix ++ B "*" end.
Definition dir_text (d : dir) : bytes :=
  B "%" ++ d_flags d ++ wid_text (d_wid d) ++ prec_text (d_prec d) ++ ix_text (d_ix d) ++ d_verb d.
Definition piece_text (p : piece) : bytes := match p with PText s => s | PDir d => dir_text d end.
Definition format_text (ps : list piece) : bytes := concat (map piece_text ps).

(** well-formed: numbers of moderate size, the verb is a character that cannot
    be read as something else *)
Definition small (z : Z) : Prop := z <= 1000000.
Definition small_ix (ix : option positive) : Prop := forall p, ix = Some p -> small (Zpos p).
Definition verb_ok (v : bytes) : Prop :=
  (exists c, v = [c] /\ (code c < 128)%N /\ ~ In c (B "#+- 0123456789*.["))
  \/ exists r, (128 <= r)%N /\ valid_rune r = true /\ v = encode_rune r.
Definition verb_rune (v : bytes) : N := fst (decode_rune v).
Definition dir_ok (d : dir) : Prop :=
  (forall c, In c (d_flags d) -> In c (B "#0+- "))
  /\ verb_ok (d_verb d)
  /\ small_ix (d_ix d)
  /\ match d_wid d with WNum n => small (Zpos n) | WStar ix => small_ix ix | WNone => True end
  /\ match d_prec d with PNum ds => exists v, digits_val 0 ds = Some v /\ ds <> [] /\ small (Z.of_N v) | PStar ix => small_ix ix | _ => True end.
Definition piece_ok (p : piece) : Prop :=
  match p with PText s => s <> [] /\ ~ In "%"%char s | PDir d => dir_ok d end.
(** two texts in a row are one text *)
Fixpoint pieces_ok (ps : list piece) : Prop :=
  match ps with
  | [] => True
  | p :: r => piece_ok p /\ pieces_ok r /\ match p, r with PText _, PText _ :: _ => False | _, _ => True end
  end.

(** ** Meaning *)
Section Meaning.
Context {A : Type}.
Variable as_int : arg A -> option Z.
Variable args : list (arg A).
(** the position an optional index designates *)
Definition at_ix (ix : option positive) (k : nat) : nat := match ix with Some p => Pos.to_nat p - 1 | None => k end.
(** a star takes the next argument, which must be an int of moderate size *)
Definition star_ok (v : arg A) : option Z :=
  match as_int v with Some z => if Z.abs z <=? 1000000 then Some z else None | None => None end.
(** [means d k out k']: with the next argument [k], directive [d] produces [out]
    and leaves [k'] as the next argument; undefined if an argument is missing *)
Inductive wid_means : width -> nat -> list (chunk A) -> option Z -> nat -> Prop :=
| M_wnone k : wid_means WNone k [] None k
| M_wnum n k : wid_means (WNum n) k [] (Some (Zpos n)) k
| M_wstar ix k v z : nth_error args (at_ix ix k) = Some v -> star_ok v = Some z ->
    wid_means (WStar ix) k [] (Some z) (S (at_ix ix k))
| M_wbad ix k v : nth_error args (at_ix ix k) = Some v -> star_ok v = None ->
    wid_means (WStar ix) k [CBadWidth] None (S (at_ix ix k)).
Inductive prec_means : precision -> nat -> list (chunk A) -> option Z -> nat -> Prop :=
| M_pnone k : prec_means PNone k [] None k
| M_pdot k : prec_means PDot k [] (Some 0) k
| M_pnum ds v k : digits_val 0 ds = Some v -> prec_means (PNum ds) k [] (Some (Z.of_N v)) k
| M_pstar ix k v z : nth_error args (at_ix ix k) = Some v -> star_ok v = Some z -> 0 <= z ->
    prec_means (PStar ix) k [] (Some z) (S (at_ix ix k))
| M_pbad ix k v : nth_error args (at_ix ix k) = Some v -> (star_ok v = None \/ exists z, star_ok v = Some z /\ z < 0) ->
    prec_means (PStar ix) k [CBadPrec] None (S (at_ix ix k)).
Inductive means : dir -> nat -> list (chunk A) -> nat -> Prop :=
| M_percent d k o1 w k1 o2 p k2 : d_verb d = B "%" ->
    wid_means (d_wid d) k o1 w k1 -> prec_means (d_prec d) k1 o2 p k2 ->
    (at_ix (d_ix d) k2 < length args \/ d_ix d = None)%nat ->
    means d k (o1 ++ o2 ++ [CPercent]) (at_ix (d_ix d) k2)
| M_arg d k o1 w k1 o2 p k2 v : d_verb d <> B "%" ->
    wid_means (d_wid d) k o1 w k1 -> prec_means (d_prec d) k1 o2 p k2 ->
    nth_error args (at_ix (d_ix d) k2) = Some v ->
    means d k (o1 ++ o2 ++ [CArg {| sp_flags := d_flags d; sp_wid := w; sp_prec := p; sp_verb := verb_rune (d_verb d) |} v])
      (S (at_ix (d_ix d) k2)).
Inductive all_means : list piece -> nat -> list (chunk A) -> nat -> Prop :=
| M_nil k : all_means [] k [] k
| M_text s r k o k' : all_means r k o k' -> all_means (PText s :: r) k (CText s :: o) k'
| M_dir d r k o k1 o' k' : means d k o k1 -> all_means r k1 o' k' -> all_means (PDir d :: r) k (o ++ o') k'.
(** does a format name an argument by its index? *)
Definition named (d : dir) : bool :=
  match d_ix d with Some _ => true | None => false end
  || match d_wid d with WStar (Some _) => true | _ => false end
  || match d_prec d with PStar (Some _) => true | _ => false end.
Definition any_named (ps : list piece) : bool :=
  existsb (fun p => match p with PDir d => named d | PText _ => false end) ps.
End Meaning.
