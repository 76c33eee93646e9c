(** Properties C12 (for .po files) and C19 to C28: writing and reading .po and
    .pot files.  [isp] is any printability table for non-ASCII runes. *)
From Coq Require Import Lia Permutation.
From Verif Require Import GoStr GoStrFacts GoQuote GoMap GoMapFacts FileModel FileSpec FileFacts WrapModel WrapSpec WrapFacts
  PoModel PoSpec PoReadFacts SortFacts PoSameFacts PoWriteFacts PoCatalogFacts.

(** ** C12: translating does not modify a loaded catalog *)
Definition reads {A} (o : fop A) : Prop := match o with OAdd _ => False | _ => True end.
Theorem C12_po_unchanged : forall A (fmt : bytes -> list A -> bytes) content f os,
  read_po content = PoOk f -> fst (lang f) <> [] -> (forall o, In o os -> reads o) ->
  fold_left (step fmt) os f = f.
Proof.
  intros A fmt content f os R L. pose proof (built_lang f (read_built _ _ _ R) L) as [H1 H2]. clear R L.
  assert (I1 : init_header f = f) by (unfold init_header; destruct (f_headers f); [reflexivity|congruence]).
  assert (I2 : init_plural f = f) by (unfold init_plural; destruct (f_plural f); [reflexivity|congruence]).
  induction os as [|o os IH]; intros H; [reflexivity|]. cbn [fold_left].
  replace (step fmt f o) with f; [apply IH; intros x Hx; apply H; right; exact Hx|].
  symmetry. specialize (H o (or_introl eq_refl)). destruct o; cbn [step]; [destruct H|exact I1|exact I1|reflexivity|].
  destruct (xn_file fmt f c i i2 n args) as [E|E]; rewrite E; [reflexivity|exact I2].
Qed.
Print Assumptions C12_po_unchanged.
Example C12_case : exists f,
  read_po (B "msgid """"" ++ NL :: B "msgstr ""Language: de\nPlural-Forms: nplurals=2; plural=n != 1;\n""" ++ [NL]) = PoOk f
  /\ fst (lang f) = B "de".
Proof. eexists. split; vm_compute; reflexivity. Qed.

(** ** C19: line splitting is lossless *)
Theorem C19_lossless : forall s threshold, exists pieces,
  split s threshold = Some pieces /\ concat pieces = s
  /\ forall p a b, In p pieces -> p = a ++ NL :: b -> b = [].
Proof.
  intros s th. destruct (split_ok th s) as (l & E & C & N & _). exists l. split; [exact E|]. split; [exact C|].
  intros p a b Hp. apply (N p Hp).
Qed.
Print Assumptions C19_lossless.
Example C19_case : split (B "one" ++ NL :: B "two three") 3 = Some [[]; B "one" ++ [NL]; B "two "; B "three"].
Proof. vm_compute. reflexivity. Qed.

(** ** C20: long lines are wrapped.  The full statement is refuted: only the
    last word is split off a long text. *)
Theorem C20_wrapped_refuted : exists s threshold pieces p a b,
  split s threshold = Some pieces /\ In p pieces /\ (Z.of_nat (length p) > threshold)%Z
  /\ p = a ++ SP :: b /\ a <> [] /\ b <> [].
Proof.
  exists (B "a b c d"), 3%Z. eexists. exists (B "a b c "), (B "a"), (B "b c ").
  split; [vm_compute; reflexivity|]. split; [left; reflexivity|]. repeat split; discriminate.
Qed.
Print Assumptions C20_wrapped_refuted.
(** What holds, for every string and threshold: exactly which pieces come out
    ([wrapped]).  Only the last line is ever wrapped, once, behind its last
    blank, and not if that blank ends it ... *)
Theorem C20_exactly : forall s threshold pieces, split s threshold = Some pieces <-> wrapped threshold s pieces.
Proof. intros s th pieces. apply split_iff. Qed.
Print Assumptions C20_exactly.
(** ... so the last piece is short enough, has no blank, or ends in one ... *)
Theorem C20_last_piece_partial : forall s threshold pieces, split s threshold = Some pieces ->
  exists l p, pieces = l ++ [p] /\ ((Z.of_nat (length p) <= threshold)%Z \/ ~ In SP p \/ exists q, p = q ++ [SP]).
Proof.
  intros s th pieces E. destruct (split_ok th s) as (l & E' & _ & _ & H). rewrite E in E'. injection E' as <-. exact H.
Qed.
Print Assumptions C20_last_piece_partial.
(** ... and a string with a short last line is only broken at its newlines,
    however long its other lines are. *)
Theorem C20_lines_whole_partial : forall firsts r threshold,
  firsts <> [] -> Forall (fun x => ~ In NL x) firsts -> r <> [] -> nl_at_end r -> (Z.of_nat (length r) <= threshold)%Z ->
  split (concat (map line firsts) ++ r) threshold = Some ([] :: map line firsts ++ [r]).
Proof.
  intros fs r th N F Nr Hr L. apply split_iff, W_more; try assumption. apply L_short, L.
Qed.
Print Assumptions C20_lines_whole_partial.
Example C20_case : split (B "the quick brown fox") 10 = Some [B "the quick brown "; B "fox"]
  /\ wrapped 10 (B "the quick brown fox" ++ NL :: B "jumps over the dog")
       [[]; B "the quick brown fox" ++ [NL]; B "jumps over the "; B "dog"]
  /\ wrapped 10 (B "the quick brown ") [B "the quick brown "].
Proof.
  split; [vm_compute; reflexivity|]. split; apply C20_exactly; vm_compute; reflexivity.
Qed.

(** ** C21: .po round trip.  Proved for catalogs with at least one entry whose
    entries are expressible ([po_ok]: comments are comment lines, a plural id
    only with the plural flag, not both kinds of translation). *)
Theorem C21_round_trip_partial : forall isp f out,
  filed f -> (forall e, In e (vals (f_entries f)) -> po_ok e) -> f_entries f <> [] -> saves_po isp f out ->
  exists f', read_po out = PoOk f' /\ filed f' /\
    forall k e, mget k (f_entries f') = Some e <-> mget k (f_entries f) = Some e /\ translated e.
Proof. exact po_round_trip. Qed.
Print Assumptions C21_round_trip_partial.
(** every catalog a program can build is [filed], and every catalog can be saved *)
Theorem C21_reachable : forall A (fmt : bytes -> list A -> bytes) isp os,
  filed (run fmt os) /\ exists out, saves_po isp (run fmt os) out.
Proof. intros A fmt isp os. split; [apply run_filed|apply saves_exist]. Qed.
Print Assumptions C21_reachable.
Theorem C21_empty_refuted : exists f, filed f /\ forall isp out, saves_po isp f out -> read_po out = PoErr.
Proof.
  exists new_file. split; [split; [constructor|intros k e []]|]. intros isp out (l & [P _] & ->).
  apply Permutation_sym, Permutation_nil in P. subst l. reflexivity.
Qed.
Print Assumptions C21_empty_refuted.
Definition mk c k i p i2 s n : entry :=
  {| e_cmts := c; e_ctxt := k; e_id := i; e_plural := p; e_id2 := i2; e_str := s; e_strn := n |}.
(** a comment without the comment sign makes the file unreadable *)
Theorem C21_comment_refuted : exists f, filed f /\ f_entries f <> [] /\
  forall isp out, saves_po isp f out -> read_po out = PoErr.
Proof.
  set (e := mk [B "note"] [] (B "a") false [] (B "b") []). exists (add_entry new_file e).
  split; [apply built_filed; exists [e]; reflexivity|]. split; [discriminate|].
  intros isp out (l & [P _] & ->). apply Permutation_sym in P. cbn in P. apply Permutation_length_1_inv in P. subst l.
  vm_compute. reflexivity.
Qed.
Print Assumptions C21_comment_refuted.
Example C21_case :
  let e1 := mk [] [] [] false [] (B "Language: de") [] in
  let e2 := mk [B "#: a.html:3"] (B "menu") (B "one file") true (B "%d files") [] [B "eine"; []] in
  let f := add_entry (add_entry new_file e1) e2 in
  filed f /\ (forall e, In e (vals (f_entries f)) -> po_ok e) /\ f_entries f <> [] /\ translated e1 /\ translated e2.
Proof.
  cbv zeta. split; [apply built_filed; eexists [_; _]; reflexivity|].
  split; [|split; [discriminate|split; [left|right]; discriminate]].
  intros e [<-|[<-|[]]]; unfold po_ok; cbn; (split; [|auto]); [intros c []|].
  intros c [<-|[]]. split; [exists (B ": a.html:3"); reflexivity|]. split; intros H; cbn in H; intuition discriminate.
Qed.

(** ** C22: .pot round trip *)
Theorem C22_template_partial : forall isp f out,
  filed f -> (forall e, In e (vals (f_entries f)) -> pot_ok e) -> f_entries f <> [] -> saves_pot isp f out ->
  exists f', read_pot out = PoOk f' /\ filed f' /\
    forall k e', mget k (f_entries f') = Some e' <-> exists e, mget k (f_entries f) = Some e /\ e' = template_of e.
Proof. exact pot_round_trip. Qed.
Print Assumptions C22_template_partial.
Theorem C22_empty_refuted : exists f, filed f /\ forall isp out, saves_pot isp f out -> read_pot out = PoErr.
Proof.
  exists new_file. split; [split; [constructor|intros k e []]|]. intros isp out (l & [P _] & ->).
  apply Permutation_sym, Permutation_nil in P. subst l. reflexivity.
Qed.
Print Assumptions C22_empty_refuted.
Example C22_case :
  let e1 := mk [] [] [] false [] (B "Language: de") [] in
  let e2 := mk [B "#: a.html:3"] (B "menu") (B "one file") true (B "%d files") [] [B "eine"; B "%d Dateien"] in
  template_of e1 = e1 /\ template_of e2 = mk [B "#: a.html:3"] (B "menu") (B "one file") true (B "%d files") [] [[]; []]
  /\ pot_ok e1 /\ pot_ok e2.
Proof.
  cbv zeta. split; [reflexivity|]. split; [reflexivity|]. split; (split; [|auto]); [intros c []|].
  intros c [<-|[]]. split; [exists (B ": a.html:3"); reflexivity|]. split; intros H; cbn in H; intuition discriminate.
Qed.

(** ** C23: line endings do not matter *)
Theorem C23_crlf : forall content, read_po (crlf content) = read_po content /\ read_pot (crlf content) = read_pot content.
Proof. intros c. split; apply read_crlf. Qed.
Print Assumptions C23_crlf.
Example C23_case : crlf (B "a" ++ NL :: B "b" ++ [NL]) = B "a" ++ CR :: NL :: B "b" ++ [CR; NL].
Proof. reflexivity. Qed.

(** ** C24: reading is total.  Refuted for templates: an error is a nil entry,
    which is added before the error is looked at. *)
Theorem C24_po_total : forall content, (exists f, read_po content = PoOk f) \/ read_po content = PoErr.
Proof. exact read_po_total. Qed.
Print Assumptions C24_po_total.
Theorem C24_pot_refuted : exists content, read_pot content = PoPanic.
Proof. exists (B "x"). vm_compute. reflexivity. Qed.
Print Assumptions C24_pot_refuted.
Theorem C24_pot_exactly_partial : forall content, content <> [] ->
  (read_pot content = PoPanic /\ read_po content = PoErr)
  \/ exists f f', read_pot content = PoOk f /\ read_po content = PoOk f'.
Proof.
  intros c H. destruct (read_outcomes c H) as [(f & f' & E1 & E2)|[E1 E2]]; [right; eauto|left; auto].
Qed.
Print Assumptions C24_pot_exactly_partial.
Example C24_case : read_po (B "msgstr ""x") = PoErr /\ exists f, read_po (B """x""") = PoOk f.
Proof. split; [|eexists]; vm_compute; reflexivity. Qed.

(** ** C25: blank lines and comments *)
Theorem C25_blank_lines : forall c1 c2, c1 <> [] -> c2 <> [] ->
  same_ink (file_lines c1) (file_lines c2) -> read_po c1 = read_po c2 /\ read_pot c1 = read_pot c2.
Proof.
  intros c1 c2 H1 H2 S. apply same_ink_filter in S.
  split; apply read_blank; assumption.
Qed.
Print Assumptions C25_blank_lines.
(** inserting one white line at the beginning of any line *)
Theorem C25_blank_insert : forall x w y, line_start x -> ~ In NL w -> white (filter (fun c => negb (Ascii.eqb c CR)) w) ->
  x ++ y <> [] -> read_po (x ++ w ++ NL :: y) = read_po (x ++ y).
Proof.
  intros x w y Hx Hw W Hne. destruct (lines_at x Hx) as (ls & _ & L).
  apply C25_blank_lines; [|exact Hne|].
  - intros E. apply app_eq_nil in E as [_ E]. apply app_eq_nil in E as [_ E]. discriminate.
  - rewrite !L, line_then by exact Hw. apply same_ink_app. apply SI_left; [exact W|apply same_ink_refl].
Qed.
Print Assumptions C25_blank_insert.
(** inserting a comment line between entries *)
Theorem C25_comments : forall x c y, line_start x -> starts (B "#") c -> ~ In NL c -> x ++ y <> [] ->
  no_open_context (file_lines x) -> entry_follows (file_lines y) ->
  same_result (read_po (x ++ c ++ NL :: y)) (read_po (x ++ y)).
Proof.
  intros x c y Hx Hc Nc Hne O F. apply strip_same_result; [apply read_po_total|].
  destruct (lines_at x Hx) as (ls & Ls & L). unfold read_po. rewrite !read_po_mach; [|exact Hne|].
  2:{ intros E. apply app_eq_nil in E as [_ E]. apply app_eq_nil in E as [_ E]. discriminate. }
  rewrite !file_lines_model, !L, line_then by exact Nc. apply comment_insert.
  - destruct Hc as [t ->]. eexists. reflexivity.
  - apply no_open_context_blank. rewrite <- Ls. exact O.
  - exact F.
Qed.
Print Assumptions C25_comments.
Example C25_case :
  let x := B "msgid ""a""" ++ NL :: B "msgstr ""b""" ++ [NL] in
  let y := B "msgid ""c""" ++ NL :: B "msgstr ""d""" ++ [NL] in
  line_start x /\ no_open_context (file_lines x) /\ entry_follows (file_lines y)
  /\ exists f, read_po (x ++ B "# note" ++ NL :: y) = PoOk f.
Proof.
  cbv zeta. split; [right; exists (B "msgid ""a""" ++ NL :: B "msgstr ""b"""); reflexivity|].
  split; [|split; [|eexists; vm_compute; reflexivity]].
  - intros a l b E [t S] W. exfalso.
    assert (I : In l (a ++ l :: b)) by (apply in_or_app; right; left; reflexivity). rewrite <- E in I. vm_compute in I.
    destruct I as [<-|[<-|[<-|[]]]]; vm_compute in S; discriminate.
  - intros a l b E H W. right; right. destruct a as [|z a].
    + injection E as <- _. exists (B """c"""). reflexivity.
    + exfalso. injection E as <- _. specialize (H _ (or_introl eq_refl)). vm_compute in H. discriminate.
Qed.

(** ** C26: the last definition wins *)
Theorem C26_last_wins : forall isp es, es <> [] -> (forall e, In e es -> po_ok e) ->
  exists f, read_po (concat (map (po_entry isp) es)) = PoOk f
    /\ forall k, last_translated es k (mget k (f_entries f)).
Proof.
  intros isp es Hne H. rewrite read_po_text by assumption. eexists. split; [reflexivity|]. apply fold_addif_last.
Qed.
Print Assumptions C26_last_wins.
(** for arbitrary files: what a second file defines wins when it is appended *)
Theorem C26_concat : forall x y fx fy, line_start x -> x <> [] -> y <> [] ->
  no_open_context (file_lines x) -> entry_follows (file_lines y) ->
  read_po x = PoOk fx -> read_po y = PoOk fy ->
  exists f, read_po (x ++ y) = PoOk f /\
    forall k, option_map strip (mget k (f_entries f)) =
      option_map strip (match mget k (f_entries fy) with Some e => Some e | None => mget k (f_entries fx) end).
Proof.
  intros x y fx fy Hx Nx Ny O F Rx Ry. destruct (lines_at x Hx) as (ls & Ls & L).
  unfold read_po in *. rewrite read_po_mach in * by (try assumption; intros E; apply app_eq_nil in E as [E _]; contradiction).
  rewrite !file_lines_model in *. rewrite L. apply mach_concat; [|exact F| |exact Ry].
  - apply no_open_context_blank. rewrite <- Ls. exact O.
  - rewrite Ls in Rx. rewrite mach_blank, filter_app in Rx. cbn [filter] in Rx.
    change (negb (blank [])) with false in Rx. cbv iota in Rx. rewrite app_nil_r, <- mach_blank in Rx. exact Rx.
Qed.
Print Assumptions C26_concat.
(** the order matters only among definitions of the same message *)
Theorem C26_order : forall isp es es', es <> [] -> es' <> [] ->
  (forall e, In e es -> po_ok e) -> (forall e, In e es' -> po_ok e) ->
  (forall k, filter (fun e => beq (e_key e) k) es = filter (fun e => beq (e_key e) k) es') ->
  exists f f', read_po (concat (map (po_entry isp) es)) = PoOk f
    /\ read_po (concat (map (po_entry isp) es')) = PoOk f'
    /\ forall k, mget k (f_entries f) = mget k (f_entries f').
Proof.
  intros isp es es' N N' H H' E. destruct (C26_last_wins isp es N H) as (f & R & L).
  destruct (C26_last_wins isp es' N' H') as (f' & R' & L'). exists f, f'. split; [exact R|]. split; [exact R'|].
  intros k. apply (last_fun es k); [apply L|]. apply (proj2 (last_filter _ _ _)). rewrite E. apply (proj1 (last_filter _ _ _)), L'.
Qed.
Print Assumptions C26_order.
Example C26_case :
  let e1 := mk [] [] (B "a") false [] (B "1") [] in
  let e2 := mk [] [] (B "a") false [] (B "2") [] in
  let e3 := mk [] [] (B "a") false [] [] [] in
  last_translated [e1; e2; e3] (e_key e1) (Some e2) /\ (forall e, In e [e1; e2; e3] -> po_ok e).
Proof.
  cbv zeta. split.
  - exists [mk [] [] (B "a") false [] (B "1") []], [mk [] [] (B "a") false [] [] []].
    repeat split; [left; discriminate|]. intros x [<-|[]] _ [H|H]; apply H; reflexivity.
  - intros e [<-|[<-|[<-|[]]]]; unfold po_ok; cbn; auto; (split; [intros c []|auto]).
Qed.

(** ** C27: saving is deterministic.  Refuted when two entries have the same
    sort key, proved otherwise. *)
Theorem C27_ties_refuted : exists f isp out out', filed f /\ saves_po isp f out /\ saves_po isp f out' /\ out <> out'.
Proof.
  set (e1 := mk [B "#:a"] [] (B "z") false [] (B "1") []).
  set (e2 := mk [] (B "#:a") (B "z") false [] (B "2") []).
  exists (add_entry (add_entry new_file e1) e2), (fun _ => true).
  exists (concat (map (po_entry (fun _ => true)) [e1; e2])), (concat (map (po_entry (fun _ => true)) [e2; e1])).
  split; [apply built_filed; exists [e1; e2]; reflexivity|].
  assert (K : sort_key e1 = sort_key e2) by reflexivity.
  split; [exists [e1; e2]|split; [exists [e2; e1]|vm_compute; discriminate]]; (split; [split|reflexivity]).
  - apply Permutation_refl.
  - split; [|split; [intros x []|exact I]]. intros x [<-|[]]. rewrite K. apply bltb_irrefl.
  - apply perm_swap.
  - split; [|split; [intros x []|exact I]]. intros x [<-|[]]. rewrite K. apply bltb_irrefl.
Qed.
Print Assumptions C27_ties_refuted.
Theorem C27_deterministic_partial : forall isp f, NoDup (map sort_key (vals (f_entries f))) ->
  (forall out out', saves_po isp f out -> saves_po isp f out' -> out = out')
  /\ (forall out out', saves_pot isp f out -> saves_pot isp f out' -> out = out').
Proof.
  intros isp f N.
  assert (U : forall l l', sorted_entries f l -> sorted_entries f l' -> l = l').
  { intros l l' [P S] [P' S']. apply sorted_unique; auto.
    - etransitivity; [exact P|symmetry; exact P'].
    - apply (Permutation_NoDup (l := map sort_key (vals (f_entries f)))); [|exact N]. apply Permutation_map. symmetry; exact P. }
  split; intros out out' (l & H & ->) (l' & H' & ->); rewrite (U l l' H H'); reflexivity.
Qed.
Print Assumptions C27_deterministic_partial.
(** messages without source references, with distinct names, never tie *)
Theorem C27_plain_partial : forall isp f out out', filed f ->
  (forall e, In e (vals (f_entries f)) -> (forall c, In c (e_cmts e) -> ~ starts (B "#:") c) /\ (e_id e = [] -> e_ctxt e = [])) ->
  saves_po isp f out -> saves_po isp f out' -> out = out'.
Proof.
  intros isp f out out' F H. apply (C27_deterministic_partial isp f).
  assert (LS : forall e, In e (vals (f_entries f)) -> line_string e = []).
  { intros e He. destruct (H e He) as [Hc _]. unfold line_string. clear - Hc.
    induction (e_cmts e) as [|c cs IH]; [reflexivity|]. cbn [map concat].
    destruct (has_prefix (B "#:") c) eqn:E.
    - exfalso. apply (Hc c (or_introl eq_refl)). apply starts_prefix, E.
    - apply IH. intros x Hx; apply Hc; right; exact Hx. }
  destruct F as [N Fk].
  assert (KI : forall e e', In e (vals (f_entries f)) -> In e' (vals (f_entries f)) -> sort_key e = sort_key e' -> e_key e = e_key e').
  { intros e e' He He'. unfold sort_key. rewrite (LS e He), (LS e' He').
    unfold is_header. destruct (e_id e) as [|x i] eqn:E1, (e_id e') as [|x' i'] eqn:E2; cbn [is_empty app].
    - intros _. unfold e_key. rewrite E1, E2, (proj2 (H e He) E1), (proj2 (H e' He') E2). reflexivity.
    - intros E. exfalso. symmetry in E. unfold e_key, key in E. destruct (e_ctxt e'); discriminate.
    - intros E. exfalso. unfold e_key, key in E. destruct (e_ctxt e); discriminate.
    - auto. }
  assert (V : map e_key (vals (f_entries f)) = keys (f_entries f)).
  { unfold vals, keys. rewrite map_map. apply map_ext_in. intros [k e] I. cbn. symmetry. apply Fk, I. }
  clear LS H Fk. rewrite <- V in N. clear V. revert N KI. generalize (vals (f_entries f)). clear.
  induction l as [|e l IH]; intros N KI; [constructor|]. cbn [map] in *. inversion N as [|? ? N1 N2]; subst.
  constructor; [|apply IH; [exact N2|intros; apply KI; auto; right; assumption]].
  intros I. apply in_map_iff in I as (e' & E & I). apply N1. rewrite <- (KI e' e); auto; [apply in_map, I|right; exact I|left; reflexivity].
Qed.
Print Assumptions C27_plain_partial.
Example C27_case : NoDup (map sort_key
  [mk [B "#: a:10"] [] (B "x") false [] (B "1") []; mk [B "#: a:9"] [] (B "x") false [] (B "1") []]).
Proof.
  constructor; [|constructor; [intros []|constructor]].
  intros [E|[]]. vm_compute in E. discriminate.
Qed.

(** ** C28: entries are written in source order (see also PropertiesOut).  Line
    numbers of more than ten digits are compared as texts. *)
Theorem C28_large_lines_refuted : exists e1 e2 p n1 n2 f l, refers e1 p n1 /\ refers e2 p n2 /\ (n1 < n2)%N
  /\ sorted_entries f l /\ l = [e2; e1].
Proof.
  set (e1 := mk [B "#:a:9999999999"] [] (B "x") false [] (B "1") []).
  set (e2 := mk [B "#:a:10000000000"] [] (B "y") false [] (B "2") []).
  exists e1, e2, (B "a"), 9999999999%N, 10000000000%N, (add_entry (add_entry new_file e1) e2), [e2; e1].
  split; [split; [discriminate|exists [], [], []; split; [reflexivity|split; [intros x []|left; reflexivity]]]|].
  split; [split; [discriminate|exists [], [], []; split; [reflexivity|split; [intros x []|left; reflexivity]]]|].
  split; [reflexivity|]. split; [|reflexivity]. split; [apply perm_swap|].
  split; [|split; [intros x []|exact I]]. intros x [<-|[]]. vm_compute. reflexivity.
Qed.
Print Assumptions C28_large_lines_refuted.
Example C28_case : refers (mk [B "# n"; B "#: d/a.html:9:2 b:7"] [] (B "x") false [] (B "1") []) (B " d/a.html") 9
  /\ refers (mk [B "#: d/a.html:10"] [] (B "y") false [] (B "1") []) (B " d/a.html") 10.
Proof.
  split; (split; [discriminate|]).
  - exists [B "# n"], (B ":2 b:7"), []. split; [reflexivity|]. split; [intros x [<-|[]]; reflexivity|].
    right. exists ":"%char, (B "2 b:7"). auto.
  - exists [], [], []. split; [reflexivity|]. split; [intros x []|left; reflexivity].
Qed.
