(** Properties C28 and C63 to C65: the text of saved .po and .pot files. *)
From Coq Require Import Lia Permutation.
From Verif Require Import GoStr GoStrFacts GoQuote GoQuoteFacts GoMap GoMapFacts FileModel FileSpec FileFacts
  PoModel PoSpec PoReadFacts PoWriteFacts PoCatalogFacts SortFacts BlankSpec LitSpec LitFacts PoGramSpec PoGramFacts
  CStrSpec CStrFacts PoOutFacts PoLoadFacts PropertiesPo.

(** the text with these lines *)
Definition text (ls : list bytes) : bytes := concat (map (fun l => l ++ [NL]) ls).
(** the text of blocks of lines, each followed by an empty line *)
Definition blocks (lss : list (list bytes)) : bytes := text (concat (map (fun ls => ls ++ [[]]) lss)).
(** the header comes first, and of two entries that refer to the same file the
    one with the smaller line number *)
Definition source_order (es : list entry) : Prop :=
  (forall a e b, es = a ++ e :: b -> e_id e = [] -> forall x, In x a -> e_id x = [])
  /\ forall a b e1 e2 p n1 n2, refers e1 p n1 -> refers e2 p n2 -> (n1 < n2 < 10 ^ 10)%N ->
       In e1 es -> es = a ++ e2 :: b -> In e1 a.
Lemma sorted_source f l : sorted_entries f l -> Permutation l (vals (f_entries f)) /\ source_order l.
Proof.
  intros [P So]. split; [exact P|]. split.
  - intros a e b. apply sorted_header, So.
  - intros a b e1 e2 p n1 n2 R1 R2 H I E.
    pose proof (refers_order e1 e2 p n1 n2 R1 R2 H) as O.
    pose proof (sorted_before l e1 e2 a b So O E) as NB.
    rewrite E in I. apply in_app_or in I as [I|[->|I]]; [exact I| |contradiction].
    rewrite bltb_irrefl in O. discriminate.
Qed.

(** ** C28 and C63: what a saved file looks like *)
(** A saved .po file consists of one block for every entry of the catalog, in
    source order, each laid out as the format prescribes ([lays], C62).
    Partial (C28): line numbers have at most ten digits. *)
Theorem C28_source_order_partial : forall isp f out,
  saves_po isp f out -> (forall e, In e (vals (f_entries f)) -> po_ok e) ->
  exists es lss, Permutation es (vals (f_entries f)) /\ source_order es /\ Forall2 lays es lss /\ out = blocks lss.
Proof.
  intros isp f out W Ok. destruct (saved_po isp f out W Ok) as (es & lss & So & L & E).
  destruct (sorted_source f es So) as [P O]. exists es, lss. auto.
Qed.
Print Assumptions C28_source_order_partial.
Theorem C63_po : forall isp f out, saves_po isp f out -> (forall e, In e (vals (f_entries f)) -> po_ok e) ->
  exists es lss, Permutation es (vals (f_entries f)) /\ Forall2 lays es lss /\ out = blocks lss.
Proof. intros isp f out W Ok. destruct (saved_po isp f out W Ok) as (es & lss & [P _] & L & E). exists es, lss. auto. Qed.
Print Assumptions C63_po.
(** A saved template has the same for every entry without its translation. *)
Theorem C63_template : forall isp f out, saves_pot isp f out -> (forall e, In e (vals (f_entries f)) -> pot_ok e) ->
  exists es lss, Permutation es (vals (f_entries f)) /\ source_order es /\ Forall2 lays (map template_of es) lss /\ out = blocks lss.
Proof.
  intros isp f out W Ok. destruct (saved_pot isp f out W Ok) as (es & lss & So & L & E).
  destruct (sorted_source f es So) as [P O]. exists es, lss. auto.
Qed.
Print Assumptions C63_template.
(** Saved files have no control bytes but the newlines that end their lines
    (catalogs without comments). *)
Theorem C63_clean : forall isp f out c, saves_po isp f out \/ saves_pot isp f out ->
  (forall e, In e (vals (f_entries f)) -> e_cmts e = []) -> In c out -> c <> NL -> (0x20 <= code c)%N /\ code c <> 0x7F%N.
Proof.
  intros isp f out c W C I Nc.
  assert (Str : forall k s, plain_key k -> (forall x, In x k -> code x <> 0x7F%N) -> In c (write_string isp k s) -> (0x20 <= code c)%N /\ code c <> 0x7F%N).
  { intros k s K1 K2 H. unfold write_string in H. apply in_app_or in H as [H|[<-|H]].
    - split; [apply K1 in H; lia|apply K2, H].
    - split; [vm_compute|]; discriminate.
    - apply in_concat in H as (q & Q & H). apply in_map_iff in Q as (p & <- & _).
      apply in_app_or in H as [H|[<-|[]]]; [|congruence]. apply (quote_clean isp p c H). }
  assert (KD : forall k, forallb (fun x => negb (code x =? 0x7F)%N) k = true -> forall x, In x k -> code x <> 0x7F%N).
  { intros k H x Hx. rewrite forallb_forall in H. specialize (H x Hx). intros E. rewrite E in H. discriminate. }
  destruct plain_keys as (P1 & P2 & P3 & P4).
  assert (PN : forall i x, In x (K_strn i) -> code x <> 0x7F%N).
  { intros i x H. unfold K_strn in H. apply in_app_or in H as [H|H]; [|apply in_app_or in H as [H|H]].
    - revert x H. apply KD. reflexivity.
    - pose proof (dec_digits _ _ H) as D. intros E. unfold is_digit, in_range in D. rewrite E in D. discriminate.
    - revert x H. apply KD. reflexivity. }
  assert (Sn : forall l i, In c (write_strn isp i l) -> (0x20 <= code c)%N /\ code c <> 0x7F%N).
  { induction l as [|s l IH]; intros i H; [destruct H|]. cbn [write_strn] in H. apply in_app_or in H as [H|H]; [|apply (IH _ H)].
    apply (Str _ _ (plain_strn i) (PN i) H). }
  assert (D1 : forall x, In x K_ctxt -> code x <> 0x7F%N) by (apply KD; reflexivity).
  assert (D2 : forall x, In x K_id -> code x <> 0x7F%N) by (apply KD; reflexivity).
  assert (D3 : forall x, In x K_id2 -> code x <> 0x7F%N) by (apply KD; reflexivity).
  assert (D4 : forall x, In x K_str -> code x <> 0x7F%N) by (apply KD; reflexivity).
  assert (NLc : In c [NL] -> (0x20 <= code c)%N /\ code c <> 0x7F%N) by (intros [<-|[]]; congruence).
  destruct W as [(l & [P _] & ->)|(l & [P _] & ->)]; apply in_concat in I as (t & T & I); apply in_map_iff in T as (e & <- & Ie);
    apply (Permutation_in e P), C in Ie.
  - unfold po_entry in I. rewrite Ie in I. cbn [write_cmts map concat app] in I.
    apply in_app_or in I as [I|I]; [destruct (negb (is_empty (e_ctxt e))); [exact (Str _ _ P1 D1 I)|destruct I]|].
    apply in_app_or in I as [I|I]; [exact (Str _ _ P2 D2 I)|].
    apply in_app_or in I as [I|I]; [destruct (e_plural e); [exact (Str _ _ P3 D3 I)|destruct I]|].
    apply in_app_or in I as [I|I]; [destruct (negb (is_empty (e_str e))); [exact (Str _ _ P4 D4 I)|destruct I]|].
    apply in_app_or in I as [I|I]; [exact (Sn _ _ I)|exact (NLc I)].
  - unfold pot_entry in I. rewrite Ie in I. cbn [write_cmts map concat app] in I.
    apply in_app_or in I as [I|I]; [destruct (negb (is_empty (e_ctxt e))); [exact (Str _ _ P1 D1 I)|destruct I]|].
    apply in_app_or in I as [I|I]; [exact (Str _ _ P2 D2 I)|]. apply in_app_or in I as [I|I]; [|exact (NLc I)].
    destruct (negb (e_plural e)); [destruct (is_empty (e_id e)); exact (Str _ _ P4 D4 I)|].
    apply in_app_or in I as [I|I]; [exact (Str _ _ P3 D3 I)|].
    apply in_app_or in I as [I|I]; exact (Str _ _ (plain_strn _) (PN _) I).
Qed.
Print Assumptions C63_clean.
Example C63_case :
  let h := mk [] [] [] false [] (B "Language: de") [] in
  let e := mk [B "#: a.html:3"] (B "menu") (B "one") true (B "many") [] [B "eine"; []] in
  let f := add_entry (add_entry new_file e) h in
  (forall x, In x (vals (f_entries f)) -> po_ok x)
  /\ saves_po (fun _ => true) f (text [B "msgid """""; B "msgstr ""Language: de"""; []; B "#: a.html:3"; B "msgctxt ""menu""";
       B "msgid ""one"""; B "msgid_plural ""many"""; B "msgstr[0] ""eine"""; B "msgstr[1] """""; []]).
Proof.
  cbv zeta. split.
  - intros x [<-|[<-|[]]]; unfold po_ok; cbn; (split; [|auto]); [|intros c []].
    intros c [<-|[]]. split; [exists (B ": a.html:3"); reflexivity|]. split; intros H; cbn in H; intuition discriminate.
  - eexists [_; _]. split; [split; [apply perm_swap|]|vm_compute; reflexivity].
    split; [|split; [intros x []|exact I]]. intros x [<-|[]]. vm_compute. reflexivity.
Qed.

(** line 9 before line 10 *)
Example C28_written_case :
  let a := mk [B "#: a.html:10"] [] (B "x") false [] (B "1") [] in
  let b := mk [B "#: a.html:9"] [] (B "y") false [] (B "2") [] in
  let f := add_entry (add_entry new_file a) b in
  (forall x, In x (vals (f_entries f)) -> po_ok x) /\ refers a (B " a.html") 10 /\ refers b (B " a.html") 9
  /\ saves_po (fun _ => true) f (text [B "#: a.html:9"; B "msgid ""y"""; B "msgstr ""2"""; [];
       B "#: a.html:10"; B "msgid ""x"""; B "msgstr ""1"""; []]).
Proof.
  cbv zeta. split; [|split; [|split]].
  - intros x [<-|[<-|[]]]; unfold po_ok; cbn; (split; [|auto]);
      (intros c [<-|[]]; split; [eexists; reflexivity|]; split; intros H; cbn in H; intuition discriminate).
  - split; [discriminate|]. exists [], [], []. split; [reflexivity|]. split; [intros x []|left; reflexivity].
  - split; [discriminate|]. exists [], [], []. split; [reflexivity|]. split; [intros x []|left; reflexivity].
  - eexists [_; _]. split; [split; [apply perm_swap|]|vm_compute; reflexivity].
    split; [|split; [intros x []|exact I]]. intros x [<-|[]]. vm_compute. reflexivity.
Qed.

(** ** C64: strings are written as C strings *)
(** What the writer puts between the quotes is, for every text of printable
    characters and ordinary control characters, a C string for that text.
    Partial: other control characters are written as Go escapes. *)
Theorem C64_c_string_partial : forall isp s, plain_text isp s -> exists body,
  quote isp s = DQ :: body ++ [DQ] /\ cstr body s.
Proof.
  intros isp s P. exists (quote_body isp (length s) s). split; [reflexivity|]. apply (body_cstr isp s P), le_n.
Qed.
Print Assumptions C64_c_string_partial.
(** Any text: the string is one that this reader understands (C61), ... *)
Theorem C64_own_reader : forall isp s, literal (quote isp s) s.
Proof. intros isp s. apply unquote_literal, unquote_quote. Qed.
Print Assumptions C64_own_reader.
(** ... but in C (and gettext) the byte 0x7F before a hexadecimal digit is
    something else, and \ufeff is no escape sequence. *)
Lemma cstr_bsl_u s t : ~ cstr (BSL :: "u"%char :: s) t.
Proof.
  assert (G : forall l v, octn l v -> exists x r a, l = x :: r /\ octd x a).
  { intros l v. induction 1 as [c0 v0 O|l0 c0 v0 d0 O (x & r & a & -> & A) O']; [eauto 6|]. cbn [app]. eauto 6. }
  intros H. remember (BSL :: "u"%char :: s) as l eqn:El. destruct H as [|w c r u C _]; [discriminate|].
  destruct C as [c r N1 N2 N3|e c r I|ds c r O _|ds c r N O _]; cbn [app] in El.
  - injection El as E1 _. congruence.
  - injection El as -> _. cbn in I. repeat (destruct I as [I|I]; [discriminate|]). exact I.
  - destruct (G _ _ O) as (x & r0 & a & -> & L & A). cbn [app] in El. injection El as -> _.
    change (code "u"%char) with 117%N in A. lia.
  - discriminate.
Qed.
Theorem C64_unicode_refuted : exists isp s, (forall t, ~ cstr (quote_body isp (length s) s) t)
  /\ quote isp s = B """\ufeff""".
Proof.
  exists (fun _ => false), (encode_rune 0xFEFF). split; [|vm_compute; reflexivity].
  intros t H. apply (cstr_bsl_u (B "feff") t). exact H.
Qed.
Print Assumptions C64_unicode_refuted.
(** Exactly: what is written is a C string for the text if and only if every
    character is printable or has an escape of its own, or is another ASCII
    control character or a byte that is no character, with no hexadecimal digit
    behind it. *)
Theorem C64_exactly : forall isp s, (exists body, quote isp s = DQ :: body ++ [DQ] /\ cstr body s) <-> c_text isp s.
Proof.
  intros isp s. split.
  - intros (b & E & C). injection E as E. apply app_inj_tail in E as [E _]. subst b. exact (cstr_text isp (length s) s (le_n _) C).
  - intros T. exists (quote_body isp (length s) s). split; [reflexivity|]. exact (text_cstr isp s T).
Qed.
Print Assumptions C64_exactly.
(** "a" and the byte 1 before "z", but not before "f" *)
Example C64_exactly_case : c_text (fun _ => false) ["a"%char; byte_of 1; "z"%char] /\ ~ c_text (fun _ => false) [byte_of 1; "f"%char].
Proof.
  split.
  - apply (T_char _ 97 (B "a")); [apply U1; reflexivity|left; split; reflexivity || discriminate|].
    apply T_control; [left; reflexivity| |].
    + intros x t v [= <- <-] D. assert (Z : code "z"%char = 122%N) by reflexivity. inversion D; lia.
    + apply (T_char _ 122 (B "z")); [apply U1; reflexivity|left; split; reflexivity || discriminate|constructor].
  - intros T. apply text_cstr in T. unfold CStrFacts.body in T.
    replace (quote_body (fun _ => false) (length [byte_of 1; "f"%char]) [byte_of 1; "f"%char]) with (BSL :: "x"%char :: B "01f") in T by (vm_compute; reflexivity).
    apply (cstr_hex (fun _ => false)) in T as (ds & c & s' & t' & E & [= <- <-] & _ & N & C).
    destruct s' as [|x s']; [inversion C as [|w c r u K _ E1]; destruct K; discriminate|].
    assert (X : exists v, hexd x v).
    { assert (I : In x (B "01f")) by (rewrite E; apply in_or_app; right; left; reflexivity).
      destruct I as [<-|[<-|[<-|[]]]]; [exists 0%N; apply H_09; reflexivity|exists 1%N; apply H_09; reflexivity|exists 15%N; apply H_af; [split; reflexivity || discriminate|reflexivity]]. }
    destruct X as [v X]. exact (N x s' v eq_refl X).
Qed.
Example C64_case : plain_text (fun r => (0xE0 <=? r)%N) (B "a\b" ++ NL :: encode_rune 0xE9).
Proof.
  apply (P_cons _ 97 (B "a")); [apply U1; reflexivity|left; split; reflexivity || discriminate|].
  apply (P_cons _ 92 (B "\")); [apply U1; reflexivity|left; split; reflexivity || discriminate|].
  apply (P_cons _ 98 (B "b")); [apply U1; reflexivity|left; split; reflexivity || discriminate|].
  apply (P_cons _ 10 [NL]); [apply U1; reflexivity|right; left; split; discriminate|].
  rewrite <- (app_nil_r (encode_rune 0xE9)).
  apply (P_cons _ 0xE9 (encode_rune 0xE9)); [apply utf8_encode; split; reflexivity|right; right; split; [discriminate|reflexivity]|constructor].
Qed.

(** ** C65: loading a file and saving it loses nothing *)
(** Whatever .po file was read, saving the catalog and reading the result
    gives the same entries (comments included), ... *)
Theorem C65_entries : forall isp content f out,
  read_po content = PoOk f -> f_entries f <> [] -> saves_po isp f out ->
  exists f', read_po out = PoOk f' /\ forall k, mget k (f_entries f') = mget k (f_entries f).
Proof.
  intros isp content f out R Ne W. destruct (load_reread isp content f out R Ne W) as (l & _ & _ & R' & E). eauto.
Qed.
Print Assumptions C65_entries.
(** ... the same answers, if the file has one header and uses it ... *)
Theorem C65_answers_partial : forall isp content f out,
  read_po content = PoOk f -> f_entries f <> [] -> saves_po isp f out ->
  (forall e, In e (vals (f_entries f)) -> e_id e = [] -> e_ctxt e = []) ->
  (forall k, fst (get_header k f) = header_value (f_x (fun s (_ : list nat) => s) f [] [] []) k) ->
  exists f', read_po out = PoOk f' /\ same_answers f f'.
Proof.
  intros isp content f out R Ne W One H. destruct (load_reread isp content f out R Ne W) as (l & So & _ & R' & E).
  eexists. split; [exact R'|]. apply same_entries_answers.
  - exact (read_built _ _ _ R).
  - exact (read_built _ _ _ R').
  - intros k. symmetry. apply E.
  - intros k. rewrite H. symmetry. eapply load_headers; eassumption.
Qed.
Print Assumptions C65_answers_partial.
(** ... and the same bytes again, if no two entries have the same sort key. *)
Theorem C65_stable_partial : forall isp content f out f' out',
  read_po content = PoOk f -> f_entries f <> [] -> saves_po isp f out ->
  NoDup (map sort_key (vals (f_entries f))) ->
  read_po out = PoOk f' -> saves_po isp f' out' -> out' = out.
Proof.
  intros isp content f out f' out' R Ne W ND R' (l' & [P' So'] & ->).
  destruct (load_reread isp content f out R Ne W) as (l & _ & _ & R2 & E). rewrite R' in R2. injection R2 as ->.
  destruct (load_filed isp content f out R Ne W) as (_ & F & _).
  assert (P : Permutation (vals (f_entries (fold_left add_entry l new_file))) (vals (f_entries f))).
  { apply filed_same; [exact (built_filed _ (read_built _ _ _ R'))|exact F|exact E]. }
  destruct (C27_deterministic_partial isp f ND) as [D _]. apply D; [|exact W].
  exists l'. split; [|reflexivity]. split; [|exact So']. exact (Permutation_trans P' P).
Qed.
Print Assumptions C65_stable_partial.
(** With two headers the answers change: while reading, the first header
    counts; the saved file has the last one only. *)
Theorem C65_headers_refuted : exists content f isp out f',
  read_po content = PoOk f /\ saves_po isp f out /\ read_po out = PoOk f'
  /\ fst (lang f) = B "de" /\ fst (lang f') = B "fr".
Proof.
  exists (B "msgid """"" ++ NL :: B "msgstr ""Language: de\n""" ++ NL :: B "msgid """"" ++ NL :: B "msgstr ""Language: fr\n""" ++ [NL]).
  eexists. exists (fun _ => true). eexists. eexists. split; [vm_compute; reflexivity|].
  split; [eexists [_]; split; [split; [apply Permutation_refl|split; [intros x []|exact I]]|reflexivity]|].
  split; [vm_compute; reflexivity|]. split; vm_compute; reflexivity.
Qed.
Print Assumptions C65_headers_refuted.
Example C65_case : exists f,
  read_po (B "msgid """"" ++ NL :: B "msgstr ""Language: de\n""" ++ NL :: B "# c" ++ CR :: NL :: B "msgid ""a""" ++ NL :: B "msgstr ""b""") = PoOk f
  /\ length (f_entries f) = 2 /\ (forall e, In e (vals (f_entries f)) -> e_id e = [] -> e_ctxt e = [])
  /\ NoDup (map sort_key (vals (f_entries f)))
  /\ fst (get_header (B "Language") f) = header_value (f_x (fun s (_ : list nat) => s) f [] [] []) (B "Language").
Proof.
  eexists. split; [vm_compute; reflexivity|]. split; [reflexivity|]. split; [|split].
  - intros e [<-|[<-|[]]]; [reflexivity|discriminate].
  - constructor; [intros [H|[]]; vm_compute in H; discriminate|constructor; [intros []|constructor]].
  - vm_compute. reflexivity.
Qed.
