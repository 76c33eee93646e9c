(** Properties C61 and C62: the strings and the layouts of .po files. *)
From Coq Require Import Lia.
From Verif Require Import GoStr GoStrFacts GoQuote GoMap GoMapFacts FileModel FileFacts PoModel PoSpec PoReadFacts
  PoCatalogFacts BlankSpec BlankFacts LitSpec LitFacts PoGramSpec PoGramFacts.

(** ** C61: what a string denotes *)
(** A text is accepted as a string exactly if it is one, and then stands for
    what the relation says. *)
Theorem C61_literal : forall s t, unquote s = Some t <-> literal s t.
Proof. exact unquote_literal. Qed.
Print Assumptions C61_literal.
(** A string denotes at most one text. *)
Theorem C61_unambiguous : forall s t t', literal s t -> literal s t' -> t = t'.
Proof. intros s t t' H H'. apply unquote_literal in H, H'. congruence. Qed.
Print Assumptions C61_unambiguous.

(** In a file: what is written between the quotes of an entry is translated
    as denoted.  Raw carriage returns are removed from every file. *)
Lemma lit_one_line body t : lit body t -> ~ In NL body.
Proof.
  assert (D : forall ds v c, hexn ds v -> In c ds -> (0x30 <= code c)%N).
  { intros ds v c H. induction H as [|ds c' v d H IH Hd]; intros I; [destruct I|].
    apply in_app_or in I as [I|[<-|[]]]; [auto|]. destruct Hd; lia. }
  induction 1 as [|w x s t C _ IH]; [intros []|]. intros I. apply in_app_or in I as [I|I]; [|auto].
  destruct C as [c s H1 H2 H3 H4|r w s Hr U|c w s Hc Hn U|e c s Hi|x y z a b d c s [Hx1 Hx2] [Hy1 Hy2] [Hz1 Hz2] Hv|ds c s Hd Hl|ds r w s Hd Hl U|ds r w s Hd Hl U].
  - destruct I as [I|[]]. congruence.
  - apply (utf8_high _ _ _ U) in I; [|exact Hr]. vm_compute in I. apply I. reflexivity.
  - destruct I as [I|[]]; subst c. vm_compute in Hc. apply Hc. reflexivity.
  - destruct I as [I|[I|[]]]; [discriminate|]. subst e. unfold escapes in Hi. cbn [In] in Hi.
    repeat (destruct Hi as [Hi|Hi]; [apply (f_equal fst) in Hi; discriminate Hi|]). destruct Hi.
  - destruct I as [I|[I|[I|[I|[]]]]]; [discriminate|subst..]; [rename Hx2 into Q|rename Hy2 into Q|rename Hz2 into Q]; change (code NL) with 10%N in Q; lia.
  - destruct I as [I|[I|I]]; [discriminate..|]. apply (D _ _ _ Hd) in I. vm_compute in I. apply I. reflexivity.
  - destruct I as [I|[I|I]]; [discriminate..|]. apply (D _ _ _ Hd) in I. vm_compute in I. apply I. reflexivity.
  - destruct I as [I|[I|I]]; [discriminate..|]. apply (D _ _ _ Hd) in I. vm_compute in I. apply I. reflexivity.
Qed.
Definition one_entry (idq strq : bytes) : bytes :=
  B "msgid " ++ DQ :: idq ++ DQ :: NL :: B "msgstr " ++ DQ :: strq ++ [DQ; NL].
Lemma blanks_nil : blanks []. Proof. constructor. Qed.
Lemma lit_spaced body t : lit body t -> spaced (DQ :: body ++ [DQ]) t.
Proof.
  intros H. exists [], (DQ :: body ++ [DQ]), []. rewrite app_nil_r. split; [reflexivity|].
  split; [exact blanks_nil|]. split; [exact blanks_nil|]. apply L_double, H.
Qed.
Lemma one_entry_lines idq strq : ~ In NL idq -> ~ In NL strq -> ~ In CR idq -> ~ In CR strq ->
  file_lines (one_entry idq strq) = [B "msgid" ++ SP :: DQ :: idq ++ [DQ]; B "msgstr" ++ SP :: DQ :: strq ++ [DQ]; []].
Proof.
  intros H1 H2 H3 H4. unfold file_lines.
  assert (E : filter (fun x => negb (Ascii.eqb x CR)) (one_entry idq strq) = one_entry idq strq).
  { assert (G : ~ In CR (one_entry idq strq)).
    { intros I. unfold one_entry in I. apply in_app_or in I as [I|I]; [cbn in I; intuition discriminate|].
      destruct I as [I|I]; [discriminate|]. apply in_app_or in I as [I|I]; [auto|].
      destruct I as [I|[I|I]]; [discriminate..|]. apply in_app_or in I as [I|I]; [cbn in I; intuition discriminate|].
      destruct I as [I|I]; [discriminate|]. apply in_app_or in I as [I|I]; [auto|]. cbn in I; intuition discriminate. }
    revert G. generalize (one_entry idq strq) as s. induction s as [|c s IH]; intros G; [reflexivity|]. cbn [filter].
    destruct (Ascii.eqb_spec c CR) as [->|]; [exfalso; apply G; left; reflexivity|]. cbn [negb]. f_equal. apply IH.
    intros I; apply G; right; exact I. }
  rewrite E. unfold one_entry.
  replace (B "msgid " ++ DQ :: idq ++ DQ :: NL :: B "msgstr " ++ DQ :: strq ++ [DQ; NL])
    with ((B "msgid" ++ SP :: DQ :: idq ++ [DQ]) ++ NL :: (B "msgstr" ++ SP :: DQ :: strq ++ [DQ]) ++ NL :: []).
  2:{ change (B "msgid " ++ DQ :: idq ++ DQ :: NL :: B "msgstr " ++ DQ :: strq ++ [DQ; NL])
        with (B "msgid" ++ SP :: DQ :: idq ++ [DQ] ++ NL :: B "msgstr" ++ SP :: DQ :: strq ++ [DQ] ++ [NL]).
      rewrite <- !app_assoc. cbn [app]. rewrite <- !app_assoc. reflexivity. }
  rewrite split_byte_app.
  2:{ intros I. apply in_app_or in I as [I|I]; [cbn in I; intuition discriminate|].
      destruct I as [I|[I|I]]; [discriminate..|]. apply in_app_or in I as [I|[I|[]]]; [auto|discriminate]. }
  rewrite split_byte_app.
  2:{ intros I. apply in_app_or in I as [I|I]; [cbn in I; intuition discriminate|].
      destruct I as [I|[I|I]]; [discriminate..|]. apply in_app_or in I as [I|[I|[]]]; [auto|discriminate]. }
  reflexivity.
Qed.
Theorem C61_file : forall A (fmt : bytes -> list A -> bytes) idq strq i t args,
  lit idq i -> lit strq t -> t <> [] -> ~ In CR idq -> ~ In CR strq ->
  exists f, read_po (one_entry idq strq) = PoOk f /\ f_x fmt f [] i args = fmt t args.
Proof.
  intros A fmt idq strq i t args Hi Ht Nt C1 C2.
  set (e := {| e_cmts := []; e_ctxt := []; e_id := i; e_plural := false; e_id2 := []; e_str := t; e_strn := [] |}).
  exists (add_entry new_file e). split.
  - rewrite (read_layout (one_entry idq strq) [e] [[B "msgid" ++ SP :: DQ :: idq ++ [DQ]; B "msgstr" ++ SP :: DQ :: strq ++ [DQ]]] []).
    + cbn [fold_left]. unfold addif. replace (is_valid e) with true; [reflexivity|]. unfold is_valid, e. cbn [e_str].
      destruct t; [congruence|reflexivity].
    + discriminate.
    + constructor; [|constructor].
      exists [], [B "msgid" ++ SP :: DQ :: idq ++ [DQ]], [], [B "msgstr" ++ SP :: DQ :: strq ++ [DQ]], [].
      split; [reflexivity|]. split; [intros c []|]. split; [right; split; reflexivity|].
      split; [apply F_first, lit_spaced, Hi|]. split; [split; reflexivity|].
      split; [left; apply F_first, lit_spaced, Ht|]. split; [constructor|right; reflexivity].
    + intros c [].
    + rewrite one_entry_lines; [|eapply lit_one_line; eassumption|eapply lit_one_line; eassumption|assumption|assumption].
      cbn [concat app]. repeat apply SI_both. apply SI_left; [reflexivity|constructor].
  - unfold f_x. unfold add_entry. cbn [f_entries]. change (key [] i) with (e_key e).
    assert (M : mget (e_key e) (f_entries (add_entry new_file e)) = Some e).
    { pose proof (fold_addif_last [e] (e_key e)) as L. cbn [fold_left] in L. unfold addif in L.
      replace (is_valid e) with true in L by (unfold is_valid, e; cbn [e_str]; destruct t; [congruence|reflexivity]).
      cbn [orb] in L. destruct (mget (e_key e) (f_entries (add_entry new_file e))) as [x|].
      - destruct L as (a & b & E & _). destruct a as [|y a]; [injection E as -> _; reflexivity|].
        injection E as _ E. destruct a; discriminate.
      - exfalso. apply (L e); [left; reflexivity|reflexivity|]. left. exact Nt. }
    unfold add_entry in M. cbn [f_entries] in M. rewrite M. cbn [e e_str]. destruct t; [congruence|reflexivity].
Qed.
Print Assumptions C61_file.
Example C61_case :
  lit (B "café \""\x41\102\""\n") (B "caf" ++ [byte_of 0xC3; byte_of 0xA9] ++ B " ""AB""" ++ [NL])
  /\ literal (BQ :: B "a\n" ++ [BQ]) (B "a\n") /\ literal (B "'x'") (B "x").
Proof.
  split; [|split; apply unquote_literal; vm_compute; reflexivity].
  assert (L : literal (DQ :: B "café \""\x41\102\""\n" ++ [DQ]) (B "caf" ++ [byte_of 0xC3; byte_of 0xA9] ++ B " ""AB""" ++ [NL]))
    by (apply unquote_literal; vm_compute; reflexivity).
  inversion L as [body t H E1 E2|body H E1 E2|E1 E2|body t H E1 E2].
  match type of E1 with _ ++ [DQ] = ?x => change x with (B "café \""\x41\102\""\n" ++ [DQ]) in E1 end.
  apply app_inj_tail in E1 as [-> _]. exact H.
Qed.

(** Texts that are not UTF-8 are not kept, whatever charset the header
    declares: the Latin-1 byte E9 is read as U+FFFD. *)
Theorem C61_charset_refuted : exists body t, (forall c, In c body -> c <> BSL /\ c <> DQ /\ c <> NL) /\ lit body t /\ t <> body.
Proof.
  exists [byte_of 0xE9], (encode_rune 0xFFFD). split; [|split; [|discriminate]].
  - intros c [<-|[]]. repeat split; discriminate.
  - change [byte_of 0xE9] with ([byte_of 0xE9] ++ []). rewrite <- (app_nil_r (encode_rune 0xFFFD)).
    apply L_cons; [|constructor]. apply C_bad; [vm_compute; discriminate| |apply utf8_encode; split; reflexivity].
    intros r x y U E. destruct U as [a H1 H2|a b H1 H2 H3|a b c H1 H2 H3 H4 H5|a b c d H1 H2 H3 H4 H5]; try discriminate E.
    injection E as <- _. vm_compute in H2. subst r. vm_compute in H1. discriminate.
Qed.
Print Assumptions C61_charset_refuted.
(** Escapes that GNU gettext reads but this reader rejects: one or two octal
    digits, one hexadecimal digit. *)
Theorem C61_short_escapes_refuted : forall t, ~ lit (B "\7") t /\ ~ lit (B "\x9") t.
Proof.
  intros t. split; intros H.
  - assert (L : literal (DQ :: B "\7" ++ [DQ]) t) by (apply L_double, H). apply unquote_literal in L. vm_compute in L. discriminate.
  - assert (L : literal (DQ :: B "\x9" ++ [DQ]) t) by (apply L_double, H). apply unquote_literal in L. vm_compute in L. discriminate.
Qed.
Print Assumptions C61_short_escapes_refuted.

(** ** C62: the layout does not matter *)
(** Any layout of the entries [es], followed by any comments, is read as
    these entries: for every name the last translated definition. *)
Theorem C62_layout : forall content es lss cs,
  content <> [] -> Forall2 lays es lss -> (forall c, In c cs -> starts (B "#") c) ->
  same_ink (file_lines content) (concat lss ++ cs) ->
  exists f, read_po content = PoOk f /\ forall k, last_translated es k (mget k (f_entries f)).
Proof.
  intros content es lss cs Hc H Hcs S. rewrite (read_layout content es lss cs Hc H Hcs S).
  eexists. split; [reflexivity|]. apply fold_addif_last.
Qed.
Print Assumptions C62_layout.
(** Two layouts of the same entries are read as the same catalog. *)
Theorem C62_same : forall c1 c2 es lss1 lss2 cs1 cs2,
  c1 <> [] -> c2 <> [] -> Forall2 lays es lss1 -> Forall2 lays es lss2 ->
  (forall c, In c cs1 -> starts (B "#") c) -> (forall c, In c cs2 -> starts (B "#") c) ->
  same_ink (file_lines c1) (concat lss1 ++ cs1) -> same_ink (file_lines c2) (concat lss2 ++ cs2) ->
  exists f, read_po c1 = PoOk f /\ read_po c2 = PoOk f.
Proof.
  intros c1 c2 es l1 l2 cs1 cs2 N1 N2 H1 H2 C1 C2 S1 S2.
  rewrite (read_layout c1 es l1 cs1 N1 H1 C1 S1), (read_layout c2 es l2 cs2 N2 H2 C2 S2). eauto.
Qed.
Print Assumptions C62_same.
(** As a template: every entry, the last definition of every name. *)
Theorem C62_template : forall content es lss, Forall2 lays es lss -> es <> [] ->
  same_ink (file_lines content) (concat lss) ->
  read_pot content = PoOk (fold_left add_entry es new_file).
Proof. exact read_layout_pot. Qed.
Print Assumptions C62_template.
(** A file with any other line is rejected. *)
Theorem C62_other_lines : forall content l, In l (file_lines content) -> ~ good_line l -> read_po content = PoErr.
Proof.
  intros content l Hl G. destruct (read_po_total content) as [[f R]|R]; [|exact R].
  exfalso. apply G. eapply read_good; [exact R|exact Hl].
Qed.
Print Assumptions C62_other_lines.
(** As a template such a file is not read either: the reader panics, as for every
    wrong template (C24). *)
Theorem C62_other_lines_template : forall content l, In l (file_lines content) -> ~ good_line l -> read_pot content = PoPanic.
Proof.
  intros content l Hl G. pose proof (C62_other_lines content l Hl G) as P. destruct content as [|c t].
  - exfalso. apply G. cbn in Hl. destruct Hl as [<-|[]]. left. constructor.
  - destruct (read_outcomes (c :: t) ltac:(discriminate)) as [(f & f' & E1 & E2)|[E1 E2]]; [|assumption].
    unfold read_po in *. congruence.
Qed.
Print Assumptions C62_other_lines_template.

Definition ex_lines : list bytes :=
  [ B "# a comment"; B "msgctxt   ""menu""  "; B "msgid """""; B """Op"""; B """en\n"""; B "msgid_plural ""Opens""";
    B "msgstr[0] ""a"""; B "msgstr[1] `b`" ].
Definition ex_laid : entry :=
  {| e_cmts := [B "# a comment"]; e_ctxt := B "menu"; e_id := B "Open" ++ [NL]; e_plural := true; e_id2 := B "Opens";
     e_str := []; e_strn := [B "a"; B "b"] |}.
Definition ex_text : bytes := B "# a comment" ++ CR :: NL :: B "msgctxt   ""menu""  " ++ NL :: B "msgid """"" ++ NL :: B """Op""" ++ NL :: B "  "
  ++ NL :: B """en\n""" ++ CR :: NL :: B "msgid_plural ""Opens""" ++ NL :: B "msgstr[0] ""a""" ++ NL :: B "msgstr[1] `b`".
Lemma spaced_by s t : unquote (trim_space s) = Some t -> spaced s t.
Proof. apply trim_spaced. Qed.
Example C62_case : Forall2 lays [ex_laid] [ex_lines] /\ same_ink (file_lines ex_text) (concat [ex_lines] ++ [])
  /\ ~ good_line (B "msgid" ++ TAB :: B """x""") /\ ~ good_line (B "  ""more""").
Proof.
  split; [|split; [|split]].
  - constructor; [|constructor].
    exists [B "msgctxt   ""menu""  "], [B "msgid """""; B """Op"""; B """en\n"""], [B "msgid_plural ""Opens"""], [],
      [B "msgstr[0] ""a"""; B "msgstr[1] `b`"].
    split; [reflexivity|]. split; [intros c [<-|[]]; exists (B " a comment"); reflexivity|].
    split; [left; apply (F_first (B "msgctxt") (B "  ""menu""  ")); apply spaced_by; vm_compute; reflexivity|].
    split.
    { change (e_id ex_laid) with ((@nil ascii ++ B "Op") ++ (B "en" ++ [NL])).
      apply (F_more (B "msgid") _ [B "msgid """""; B """Op"""] (B """en\n""")).
      - apply (F_more (B "msgid") _ [B "msgid """""] (B """Op""")).
        + apply (F_first (B "msgid") (B """""")). apply spaced_by. vm_compute. reflexivity.
        + split; [exists (B "Op"""); reflexivity|]. apply spaced_by. vm_compute. reflexivity.
      - split; [exists (B "en\n"""); reflexivity|]. apply spaced_by. vm_compute. reflexivity. }
    split; [apply (F_first (B "msgid_plural") (B """Opens""")); apply spaced_by; vm_compute; reflexivity|].
    split; [right; split; reflexivity|].
    split; [|left; reflexivity].
    apply (FS_cons 0 (B "a") [B "b"] [B "msgstr[0] ""a"""] [B "msgstr[1] `b`"]).
    + apply (F_first (B "msgstr[0]") (B """a""")). apply spaced_by. vm_compute. reflexivity.
    + apply (FS_cons 1 (B "b") [] [B "msgstr[1] `b`"] []); [|constructor].
      apply (F_first (B "msgstr[1]") (B "`b`")). apply spaced_by. vm_compute. reflexivity.
  - match goal with |- same_ink ?a ?b => let a' := eval vm_compute in a in change a with a'; let b' := eval vm_compute in b in change b with b' end.
    do 4 apply SI_both. apply SI_left; [reflexivity|]. repeat apply SI_both. constructor.
  - intros [W|[[t E]|[(t & [u E] & _)|(k & s & t & E & _ & K)]]].
    + apply trim_nil in W. vm_compute in W. discriminate.
    + discriminate.
    + discriminate.
    + destruct K as [K|[i ->]]; [|discriminate].
      cbn [In] in K. destruct K as [<-|[<-|[<-|[<-|[]]]]]; discriminate E.
  - intros [W|[[t E]|[(t & [u E] & _)|(k & s & t & E & _ & K)]]].
    + apply trim_nil in W. vm_compute in W. discriminate.
    + discriminate.
    + discriminate.
    + destruct K as [K|[i ->]]; [|discriminate].
      cbn [In] in K. destruct K as [<-|[<-|[<-|[<-|[]]]]]; discriminate E.
Qed.
(** Comments behind the last entry are not ignored in a template: they become
    an entry with an empty name and replace the text of the header. *)
Theorem C62_trailing_comment_refuted : exists content f f',
  read_pot content = PoOk f /\ read_pot (content ++ B "#~ obsolete" ++ [NL]) = PoOk f'
  /\ line_start content /\ f_x (fun s (_ : list nat) => s) f [] [] [] = B "Language: de" ++ [NL]
  /\ f_x (fun s (_ : list nat) => s) f' [] [] [] = [].
Proof.
  exists (B "msgid """"" ++ NL :: B "msgstr ""Language: de\n""" ++ [NL]).
  eexists. eexists. split; [vm_compute; reflexivity|]. split; [vm_compute; reflexivity|].
  split; [right; exists (B "msgid """"" ++ NL :: B "msgstr ""Language: de\n"""); reflexivity|].
  split; vm_compute; reflexivity.
Qed.
Print Assumptions C62_trailing_comment_refuted.
