(** Property C77: the error of a rejected .po file. *)
From Coq Require Import Lia.
From Verif Require Import GoStr GoStrFacts GoFmt GoMap FileModel PoModel ErrModel ErrSpec ErrFacts LitSpec BlankSpec PoErrModel PoErrSpec PoErrFacts.
Local Open Scope Z_scope.

(** The reader with line numbers and error values accepts, rejects and panics as
    the one of the other properties, and reads the same catalog. *)
Theorem C77_reader : forall A (print : spec -> arg (val A) -> bytes) as_int extra empty_po invalid_entry eof syntax next,
  settings print empty_po invalid_entry eof syntax next -> forall pot content,
  match read_po_e print as_int extra empty_po invalid_entry eof syntax next pot content with
  | EOk f => read_po_ pot content = PoOk f
  | EFail _ => read_po_ pot content = PoErr
  | EPanic => read_po_ pot content = PoPanic
  | EFuel => False
  end.
Proof.
  intros A print as_int extra empty_po invalid_entry eof syntax next ST pot content.
  pose proof (read_po_bare print as_int extra empty_po invalid_entry eof syntax next ST pot content) as Q.
  destruct (read_po_e print as_int extra empty_po invalid_entry eof syntax next pot content) as [f|x| |]; cbn [bare] in Q; try congruence.
  symmetry in Q. clear - Q. destruct content as [|c t]; [discriminate|].
  pose proof (PoReadFacts.read_outcomes (c :: t) ltac:(discriminate)) as [(f & f' & H1 & H2)|[H1 H2]];
    destruct pot; unfold read_po, read_pot in *; congruence.
Qed.
Print Assumptions C77_reader.

(** A content that is not empty is rejected because of one of its lines.  The
    lines before it alone are accepted; with this line, they are rejected with
    this same error whatever comes next.  The error has the text "invalid
    entry: " and the complaint, which shows the line and its number, and for a
    text that is no string the field: the one of the keyword on the line, or for
    a line that goes on with a text the one of the last keyword before.
    Partial: the numbers count from zero. *)
Theorem C77_line_partial : forall A (print : spec -> arg (val A) -> bytes) as_int extra empty_po invalid_entry eof syntax next,
  settings print empty_po invalid_entry eof syntax next -> forall content x, content <> [] ->
  let read := read_po_e print as_int extra empty_po invalid_entry eof syntax next false in
  read content = EFail x ->
  exists pre l post g m b, has_lines content (pre ++ l :: post)
  /\ (forall c, c <> [] -> has_lines c pre -> exists f, read c = EOk f)
  /\ (forall c post', c <> [] -> has_lines c (pre ++ l :: post') -> read c = EFail x)
  /\ in_field pre g /\ (forall g', in_field pre g' -> g' = g)
  /\ complaint (N.of_nat (length pre)) g l m b
  /\ e_msg x = B "invalid entry: " ++ m
  /\ Is true (Some x) (Some invalid_entry) = true
  /\ Is true (Some x) (Some syntax) = b
  /\ Is true (Some x) (Some eof) = false
  /\ Is true (Some x) (Some empty_po) = false.
Proof.
  intros A print as_int extra empty_po invalid_entry eof syntax next ST content x N read H.
  destruct (po_error print as_int extra empty_po invalid_entry eof syntax next ST content x N H)
    as (pre & l & post & g & m & b & H1 & H2 & H3 & HF & H4 & ->).
  exists pre, l, post, g, m, b. split; [exact H1|]. split; [exact H2|]. split; [intros c post' Nc Lc; exact (H3 c post' Lc Nc)|].
  split; [exact HF|]. split; [intros g' G'; exact (in_field_one _ _ _ G' HF)|]. split; [exact H4|]. split; [reflexivity|].
  destruct (s_empty _ _ _ _ _ _ ST) as [i0 E0]. destruct (s_invalid _ _ _ _ _ _ ST) as [i1 E1].
  destruct (s_eof _ _ _ _ _ _ ST) as [i2 E2]. destruct (s_syntax _ _ _ _ _ _ ST) as [i3 E3].
  pose proof (s_differ _ _ _ _ _ _ ST) as D. pose proof (s_older _ _ _ _ _ _ ST) as O.
  assert (O0 := O empty_po (or_introl eq_refl)). assert (O2 := O eof (or_intror (or_intror (or_introl eq_refl)))).
  assert (O3 := O syntax (or_intror (or_intror (or_intror (or_introl eq_refl))))).
  clear - E0 E1 E2 E3 D O0 O2 O3. unfold grown. rewrite E0, E1, E2, E3 in *. cbn [map e_ident] in *.
  apply NoDup_cons_iff in D as [N1 D]. apply NoDup_cons_iff in D as [N2 D]. apply NoDup_cons_iff in D as [N3 D]. cbn [In] in *.
  assert (forall n m : nat, n <> m -> Nat.eqb n m = false) as Q by (intros; apply Nat.eqb_neq; assumption).
  repeat split.
  - cbn [Is is_ e_ident existsb]. rewrite Nat.eqb_refl. cbn [andb orb]. apply orb_true_r.
  - destruct b; cbn [Is is_ e_ident existsb andb orb]; rewrite ?Nat.eqb_refl, (Q (S next)), (Q i1), (Q next) by (tauto || lia); reflexivity.
  - destruct b; cbn [Is is_ e_ident existsb andb orb]; rewrite ?(Q (S next)), ?(Q i1), ?(Q next), ?(Q i3) by (intuition congruence || lia); reflexivity.
  - destruct b; cbn [Is is_ e_ident existsb andb orb]; rewrite ?(Q (S next)), ?(Q i1), ?(Q next), ?(Q i3) by (intuition congruence || lia); reflexivity.
Qed.
Print Assumptions C77_line_partial.

(** The empty content has its own error. *)
Theorem C77_empty : forall A (print : spec -> arg (val A) -> bytes) as_int extra empty_po invalid_entry eof syntax next,
  settings print empty_po invalid_entry eof syntax next -> forall content,
  let read := read_po_e print as_int extra empty_po invalid_entry eof syntax next false in
  content = [] <-> exists x, read content = EFail x /\ e_msg x = B "read po file failed: empty po file"
    /\ Is true (Some x) (Some empty_po) = true.
Proof.
  intros A print as_int extra empty_po invalid_entry eof syntax next ST content read. split.
  - intros ->. eexists. split; [reflexivity|]. destruct (s_empty _ _ _ _ _ _ ST) as [i Ei].
    unfold Wrapf, errorf, boxed.
    change (printf_chunks as_int (B "read po file failed" ++ B ": %w") ([] ++ [VOther (VErr empty_po)]))
      with (Some (A := list (chunk (val A))) [CText (B "read po file failed: "); CArg (plain 119) (VOther (VErr empty_po))]).
    cbv beta iota. split.
    + cbn [e_msg]. unfold render. cbn [map concat show]. unfold print_arg. cbn [plain sp_flags sp_wid sp_prec].
      rewrite (s_print _ _ _ _ _ _ ST), Ei. reflexivity.
    + rewrite Ei. cbn [Is is_ e_ident wrapped flat_map wrapped1 plain sp_verb N.eqb Pos.eqb app existsb]. rewrite Nat.eqb_refl.
      cbn [andb orb]. apply orb_true_r.
  - intros (x & H & _ & I). destruct content as [|c t] eqn:E; [reflexivity|]. exfalso. rewrite <- E in H.
    assert (N : content <> []) by (rewrite E; discriminate).
    destruct (C77_line_partial _ _ _ _ _ _ _ _ _ ST _ _ N H) as (pre & l & post & g & m & b & _ & _ & _ & _ & _ & _ & _ & _ & _ & _ & F). congruence.
Qed.
Print Assumptions C77_empty.

(** The number of the line is not the one an editor shows: the complaint about
    the third line says 2. *)
Definition c77_print (d : spec) (v : arg (val nat)) : bytes := match v with VOther (VErr e) => e_msg e | _ => [] end.
Definition c77_empty : err := Err 0 (B "empty po file") (fun _ => false) [].
Definition c77_invalid : err := Err 1 (B "invalid entry") (fun _ => false) [].
Definition c77_eof : err := Err 2 (B "EOF") (fun _ => false) [].
Definition c77_syntax : err := Err 3 (B "invalid syntax") (fun _ => false) [].
Lemma c77_settings : settings c77_print c77_empty c77_invalid c77_eof c77_syntax 4.
Proof.
  constructor; [reflexivity|eexists; reflexivity..| |].
  - repeat constructor; cbn; intuition discriminate.
  - intros e [<-|[<-|[<-|[<-|[]]]]]; cbn; lia.
Qed.
Definition c77_po : bytes := B "msgid ""one""" ++ NL :: B "msgstr ""eins""" ++ NL :: B "msgid two" ++ NL :: B "msgstr ""zwei""".
Definition c77_read := read_po_e c77_print (fun _ => None) (fun _ => []) c77_empty c77_invalid c77_eof c77_syntax 4 false.
Theorem C77_number_refuted : exists content x pre l post,
  c77_read content = EFail x /\ has_lines content (pre ++ l :: post) /\ S (length pre) = 3%nat /\ l = B "msgid two"
  /\ e_msg x = B "invalid entry: unquote msgid failed|line 2: msgid two: invalid syntax".
Proof.
  exists c77_po. eexists. exists [B "msgid ""one"""; B "msgstr ""eins"""], (B "msgid two"), [B "msgstr ""zwei"""].
  split; [vm_compute; reflexivity|]. split; [|repeat split].
  exact (lines_of_has c77_po).
Qed.
Print Assumptions C77_number_refuted.
(** the hypotheses are met; an unexpected line and a form out of turn *)
Example C77_case :
  settings c77_print c77_empty c77_invalid c77_eof c77_syntax 4
  /\ (exists x, c77_read (B "msgid ""a""" ++ NL :: B "msgstr[0] ""x""" ++ NL :: B "msgstr[2] ""y""") = EFail x
      /\ e_msg x = B "invalid entry: unexpected line 2: msgstr[2] ""y""")
  /\ (exists x, c77_read (B "msgid ""a""" ++ NL :: B "msgstr[0] ""x""" ++ NL :: B "msgstr[1] ""y") = EFail x
      /\ e_msg x = B "invalid entry: unquote msgstr[1]  failed|line 2: msgstr[1] ""y: invalid syntax")
  /\ (exists x, c77_read (B "msgctxt ""a""" ++ NL :: B """b") = EFail x
      /\ e_msg x = B "invalid entry: unquote ctxt failed|line 1: ""b: invalid syntax").
Proof. split; [exact c77_settings|]. repeat split; eexists; vm_compute; split; reflexivity. Qed.
