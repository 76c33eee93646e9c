(** Properties C12 (for .mo files) and C29 to C35: writing and reading .mo
    files. *)
From Coq Require Import Lia Permutation.
From Verif Require Import GoStr GoStrFacts GoMap GoMapFacts FileModel FileSpec FileFacts
  PoModel PoSpec PoReadFacts SortFacts PoSameFacts PoWriteFacts PoCatalogFacts
  MoModel MoSpec MoFacts MoCatalogFacts MoCutFacts PropertiesPo.
Local Open Scope N_scope.
(** for examples *)
Lemma absent c s : existsb (Ascii.eqb c) s = false -> ~ In c s.
Proof. intros H Q. apply existsb_in in Q. congruence. Qed.
Ltac absent := apply absent; vm_compute; reflexivity.
Ltac sorted := cbn [sorted_by_key]; repeat split;
  let H := fresh in intros ? H; repeat (destruct H as [<-|H]; [vm_compute; reflexivity|]); destruct H.
Ltac fits := split; [absent|split; [absent|split; [intros ?; (discriminate || (split; absent))|]]];
  cbn [e_plural]; ((split; reflexivity) || (split; [reflexivity|split; [discriminate|let H := fresh in intros ? H;
    repeat (destruct H as [<-|H]; [absent|]); destruct H]])).
(** ** C12: translating does not modify a loaded catalog *)
Theorem C12_mo_unchanged : forall A (fmt : bytes -> list A -> bytes) content f os,
  read_mo content = MoOk f -> fst (lang f) <> [] -> (forall o, In o os -> reads o) ->
  fold_left (step fmt) os f = f.
Proof.
  intros A fmt content f os R L. pose proof (built_lang f (read_mo_built _ _ R) L) as [H1 H2]. clear R L.
  assert (I1 : init_header f = f) by (unfold init_header; destruct (f_headers f); [reflexivity|congruence]).
  assert (I2 : init_plural f = f) by (unfold init_plural; destruct (f_plural f); [reflexivity|congruence]).
  induction os as [|o os IH]; intros H; [reflexivity|]. cbn [fold_left].
  replace (step fmt f o) with f; [apply IH; intros x Hx; apply H; right; exact Hx|].
  symmetry. specialize (H o (or_introl eq_refl)). destruct o; cbn [step]; [destruct H|exact I1|exact I1|reflexivity|].
  destruct (xn_file fmt f c i i2 n args) as [E|E]; rewrite E; [reflexivity|exact I2].
Qed.
Print Assumptions C12_mo_unchanged.
Definition ex_header : entry :=
  mk [] [] [] false [] (B "Language: de" ++ NL :: B "Plural-Forms: nplurals=2; plural=n != 1;" ++ [NL]) [].
Definition ex_one : entry := mk [B "# c"] (B "menu") (B "open") false [] (B "oeffnen") [].
Definition ex_two : entry := mk [] [] (B "file") true (B "files") [] [B "Datei"; B "Dateien"].
Definition ex_file : file := fold_left add_entry [ex_one; ex_header; ex_two] new_file.
Example C12_mo_case : exists out f, saves_mo ex_file out /\ read_mo out = MoOk f /\ fst (lang f) = B "de".
Proof.
  eexists. eexists. split; [exists [ex_header; ex_two; ex_one]|].
  - split; [|reflexivity]. split; [|sorted].
    change (vals (f_entries ex_file)) with [ex_one; ex_header; ex_two].
    apply perm_trans with (l' := [ex_header; ex_one; ex_two]); [apply perm_skip, perm_swap|apply perm_swap].
  - split; vm_compute; reflexivity.
Qed.

(** ** C29: saving and re-reading a .mo file preserves the catalog.
    Full statement: for every catalog whose .mo form is smaller than 4 GB,
    SaveAsMo and ReadMo give the same entries, without comments.  That is false
    for entries that the format cannot express, see [C29_plural_refuted] and
    [C29_context_refuted]; [mo_ok] excludes exactly a context with an EOT byte,
    an id with a NUL byte (or with EOT if there is no context), plural entries
    without translations or with a singular translation, and singular entries
    with plural parts. *)
Theorem C29_round_trip_partial : forall f out,
  filed f -> (forall e, In e (vals (f_entries f)) -> mo_ok e) ->
  saves_mo f out -> N.of_nat (length out) < 2 ^ 32 ->
  exists f', read_mo out = MoOk f' /\ filed f'
    /\ forall k, mget k (f_entries f') = option_map strip (mget k (f_entries f)).
Proof. exact mo_round_trip. Qed.
Print Assumptions C29_round_trip_partial.
(** every catalog can be saved, and catalogs are always filed *)
Theorem C29_reachable : forall A (fmt : bytes -> list A -> bytes) os,
  filed (run fmt os) /\ exists out, saves_mo (run fmt os) out.
Proof. intros A fmt os. split; [apply run_filed|apply saves_mo_exist]. Qed.
Print Assumptions C29_reachable.
Example C29_case : filed ex_file /\ (forall e, In e (vals (f_entries ex_file)) -> mo_ok e)
  /\ exists out, saves_mo ex_file out /\ N.of_nat (length out) < 2 ^ 32.
Proof.
  split; [apply built_filed; eexists; reflexivity|]. split.
  - intros e [<-|[<-|[<-|[]]]]; fits.
  - destruct (saves_mo_exist ex_file) as [out S]. exists out. split; [exact S|]. destruct S as (l & [P _] & ->).
    change (len (mo_bytes l) < 2 ^ 32). rewrite mo_bytes_len. unfold body. rewrite len_app.
    assert (Q : forall g, len (write_strings (map g l)) = len (write_strings (map g (vals (f_entries ex_file))))).
    { intros g. pose proof (Permutation_map g P) as P'. unfold len. f_equal. apply Permutation_length.
      unfold write_strings. rewrite <- !flat_map_concat_map. apply Permutation_flat_map, P'. }
    rewrite !Q, (Permutation_length P). reflexivity.
Qed.
(** an untranslated plural entry comes back with one empty translation *)
Theorem C29_plural_refuted : exists f out f' e e', filed f /\ saves_mo f out /\ read_mo out = MoOk f'
  /\ mget (key [] (B "file")) (f_entries f) = Some e /\ mget (key [] (B "file")) (f_entries f') = Some e'
  /\ e_strn e = [] /\ e_strn e' = [[]].
Proof.
  exists (add_entry new_file (mk [] [] (B "file") true (B "files") [] [])). eexists. eexists. eexists. eexists.
  split; [apply built_filed; exists [mk [] [] (B "file") true (B "files") [] []]; reflexivity|].
  split; [exists [mk [] [] (B "file") true (B "files") [] []]; split; [split; [apply Permutation_refl|sorted]|reflexivity]|].
  split; [vm_compute; reflexivity|]. repeat split; vm_compute; reflexivity.
Qed.
Print Assumptions C29_plural_refuted.
(** an id with the separator byte comes back under another key *)
Theorem C29_context_refuted : exists f out f' e, filed f /\ saves_mo f out /\ read_mo out = MoOk f'
  /\ mget (key [] (B "a" ++ EOT :: B "b")) (f_entries f) = Some e
  /\ mget (key [] (B "a" ++ EOT :: B "b")) (f_entries f') = None.
Proof.
  pose (e := mk [] [] (B "a" ++ EOT :: B "b") false [] (B "x") []).
  exists (add_entry new_file e). eexists. eexists. exists e.
  split; [apply built_filed; exists [e]; reflexivity|].
  split; [exists [e]; split; [split; [apply Permutation_refl|sorted]|reflexivity]|].
  split; [vm_compute; reflexivity|]. repeat split; vm_compute; reflexivity.
Qed.
Print Assumptions C29_context_refuted.

(** ** C30: the .mo layout is a valid GNU MO file *)
(** the header: magic number, revision 0, number of strings, the two tables
    behind each other, no hash table *)
Theorem C30_header : forall f out, saves_mo f out -> N.of_nat (length out) < 2 ^ 32 ->
  let n := N.of_nat (length (f_entries f)) in
  word_at LE out 0 0x950412de /\ word_at LE out 4 0 /\ word_at LE out 8 n /\ word_at LE out 12 75
  /\ word_at LE out 16 (75 + 8 * n) /\ word_at LE out 20 0 /\ word_at LE out 24 0.
Proof.
  intros f out (l & [P _] & ->) L n.
  replace n with (N.of_nat (length l)); [exact (mo_header_words l L)|].
  unfold n. rewrite (Permutation_length P). unfold vals. rewrite map_length. reflexivity.
Qed.
Print Assumptions C30_header.
(** there is an order of the entries such that entry [i] of each table gives
    length and offset of the string of the [i]-th entry, which is stored there
    with a NUL byte behind it, behind the tables and inside the file *)
Theorem C30_strings : forall f out, saves_mo f out -> N.of_nat (length out) < 2 ^ 32 ->
  let n := N.of_nat (length (f_entries f)) in
  exists l, Permutation l (vals (f_entries f)) /\
  forall i e, nth_error l i = Some e -> forall p s, p = 75 /\ s = mo_id e \/ p = 75 + 8 * n /\ s = mo_str e ->
  exists off, table_entry out p i (N.of_nat (length s)) off /\ bytes_at out off (s ++ [NUL])
    /\ 75 + 16 * n <= off /\ off + N.of_nat (length s) < N.of_nat (length out).
Proof.
  intros f out (l & [P _] & ->) L n. exists l. split; [exact P|]. intros i e Hi p s H.
  assert (En : n = N.of_nat (length l)).
  { unfold n. rewrite (Permutation_length P). unfold vals. rewrite map_length. reflexivity. }
  pose proof (mo_packed l L) as Pk. cbn zeta in Pk. rewrite <- En in Pk.
  destruct H as [[-> ->]|[-> ->]].
  - apply (packed_nth _ _ _ _ _ i _ Pk). rewrite nth_error_app1; [apply map_nth_error, Hi|].
    rewrite map_length. apply nth_error_Some. congruence.
  - destruct (packed_nth _ _ _ _ _ (length l + i) (mo_str e) Pk) as (off & T & R).
    { rewrite nth_error_app2; rewrite map_length; [|lia]. replace (length l + i - length l)%nat with i by lia.
      apply map_nth_error, Hi. }
    exists off. split; [|exact R]. unfold table_entry in *.
    replace (75 + 8 * N.of_nat (length l + i)) with (75 + 8 * n + 8 * N.of_nat i) in T by lia. exact T.
Qed.
Print Assumptions C30_strings.
(** the strings do not overlap: the two tables are one table of 2n pairs, and
    in that order every string ends (with its NUL byte) before the next begins *)
Theorem C30_disjoint : forall f out i j a off b off', saves_mo f out -> N.of_nat (length out) < 2 ^ 32 ->
  (i < j < 2 * length (f_entries f))%nat -> table_entry out 75 i a off -> table_entry out 75 j b off' ->
  off + a < off'.
Proof.
  intros f out i j a off b off' (l & [P _] & ->) L H T T'.
  assert (En : length (f_entries f) = length l).
  { rewrite (Permutation_length P). unfold vals. rewrite map_length. reflexivity. }
  pose proof (mo_packed l L) as Pk. cbn zeta in Pk.
  destruct (nth_error (map mo_id l ++ map mo_str l) i) as [s|] eqn:Ei;
    [|apply nth_error_None in Ei; rewrite app_length, !map_length in Ei; lia].
  destruct (nth_error (map mo_id l ++ map mo_str l) j) as [s'|] eqn:Ej;
    [|apply nth_error_None in Ej; rewrite app_length, !map_length in Ej; lia].
  destruct (packed_nth _ _ _ _ _ _ _ Pk Ei) as (o & Q & _). destruct (packed_nth _ _ _ _ _ _ _ Pk Ej) as (o' & Q' & _).
  pose proof (word_at_fun _ _ _ _ _ (proj1 T) (proj1 Q)). pose proof (word_at_fun _ _ _ _ _ (proj1 T') (proj1 Q')). subst a b.
  apply (packed_disjoint _ _ _ _ _ i j s s' off off' Pk); auto; lia.
Qed.
Print Assumptions C30_disjoint.
Example C30_case : exists out, saves_mo ex_file out /\ N.of_nat (length out) < 2 ^ 32 /\ length (f_entries ex_file) = 3%nat.
Proof. destruct C29_case as (_ & _ & out & S & L). exists out. auto. Qed.

(** ** C31: the string table is sorted.  Refuted: the entries are sorted by
    source reference first *)
Theorem C31_sorted_refuted : exists f out ids strs i j s s', filed f /\ saves_mo f out
  /\ stores LE out ids strs /\ (i < j)%nat /\ nth_error ids i = Some s /\ nth_error ids j = Some s'
  /\ bltb s' s = true.
Proof.
  pose (e := mk [B "#: a.go:1"] [] (B "b") false [] (B "x") []). pose (e' := mk [B "#: z.go:9"] [] (B "a") false [] (B "y") []).
  exists (fold_left add_entry [e; e'] new_file). eexists. exists [B "b"; B "a"], [B "x"; B "y"], 0%nat, 1%nat, (B "b"), (B "a").
  split; [apply built_filed; eexists; reflexivity|].
  split; [exists [e; e']; split; [split; [apply Permutation_refl|sorted]|reflexivity]|].
  split; [exact (mo_stores [e; e'] eq_refl)|]. repeat split. lia.
Qed.
Print Assumptions C31_sorted_refuted.
(** without contexts and source references the table is strictly sorted *)
Theorem C31_sorted_partial : forall f out ids strs i j s s', filed f ->
  (forall e, In e (vals (f_entries f)) -> e_ctxt e = [] /\ ~ In NUL (e_id e)
     /\ forall c, In c (e_cmts e) -> ~ starts (B "#:") c) ->
  saves_mo f out -> N.of_nat (length out) < 2 ^ 32 -> stores LE out ids strs ->
  (i < j)%nat -> nth_error ids i = Some s -> nth_error ids j = Some s' -> bltb s s' = true.
Proof.
  intros f out ids strs i j s s' F G (l & [P S] & ->) L St.
  destruct (stores_fun _ _ _ _ _ _ _ St (mo_stores l L)) as (_ & -> & _).
  apply plain_sorted; [intros e He; apply G, (Permutation_in e P), He|apply (nodup_keys f l F P)|exact S].
Qed.
Print Assumptions C31_sorted_partial.
Example C31_case : forall e, In e [ex_header; ex_two] -> e_ctxt e = [] /\ ~ In NUL (e_id e)
  /\ forall c, In c (e_cmts e) -> ~ starts (B "#:") c.
Proof. intros e [<-|[<-|[]]]; (split; [reflexivity|split; [absent|intros c []]]). Qed.

(** ** C32: reading a .mo file always returns a catalog or an error *)
Theorem C32_total : forall content, (exists f, read_mo content = MoOk f) \/ read_mo content = MoErr.
Proof. exact read_mo_total. Qed.
Print Assumptions C32_total.
(** exactly the MO files are accepted, and the catalog is what their strings,
    all of them inside the content, mean *)
Theorem C32_exactly : forall content f, read_mo content = MoOk f <->
  exists bo ids strs es, stores bo content ids strs
    /\ length es = length ids
    /\ (forall i e, nth_error es i = Some e -> exists id str,
          nth_error ids i = Some id /\ nth_error strs i = Some str /\ means id str e)
    /\ f = fold_left add_entry es new_file.
Proof.
  intros content f. rewrite read_mo_spec.
  assert (Q : forall bo ids strs, stores bo content ids strs -> length ids = length strs).
  { intros bo ids strs (_ & _ & (n & o & t & _ & _ & _ & -> & E & _) & _). lia. }
  split.
  - intros (bo & ids & strs & S & ->).
    exists bo, ids, strs, (map (fun p => mo_entry (fst p) (snd p)) (combine ids strs)). pose proof (Q _ _ _ S) as L.
    split; [exact S|]. split; [rewrite map_length, combine_length; lia|]. split.
    + intros i e H. clear S Q. revert strs i L H.
      induction ids as [|id ids IH]; intros [|str strs] i L H; try discriminate; [destruct i; discriminate|].
      destruct i as [|i].
      * cbn in H. injection H as <-. exists id, str. split; [reflexivity|]. split; [reflexivity|]. apply means_iff. reflexivity.
      * cbn [nth_error]. apply IH; [cbn [length] in L; lia|exact H].
    + unfold catalog_of. clear. generalize new_file as f. induction (combine ids strs) as [|p l IH]; intros f; [reflexivity|].
      cbn [map fold_left]. apply IH.
  - intros (bo & ids & strs & es & S & Le & H & ->). exists bo, ids, strs. split; [exact S|].
    pose proof (Q _ _ _ S) as L. clear S Q. unfold catalog_of. generalize new_file as f. revert ids strs Le L H.
    induction es as [|e es IH]; intros [|id ids] [|str strs] Le L H f; try discriminate; [reflexivity|].
    destruct (H 0%nat e eq_refl) as (id' & str' & E1 & E2 & M). injection E1 as <-. injection E2 as <-.
    apply means_iff in M. subst e. cbn [combine fold_left fst snd]. apply IH; [cbn [length] in *; lia..|].
    intros i x Hi. apply (H (S i) x Hi).
Qed.
Print Assumptions C32_exactly.
Theorem C32_magic : forall content, (forall bo, ~ word_at bo content 0 0x950412de) -> read_mo content = MoErr.
Proof.
  intros c H. destruct (read_mo_total c) as [[f E]|E]; [|exact E]. exfalso.
  apply read_mo_spec in E as (bo & ids & strs & (M & _) & _). apply (H bo M).
Qed.
Print Assumptions C32_magic.
Theorem C32_version : forall content bo v, word_at bo content 0 0x950412de ->
  half_at bo content 4 v \/ half_at bo content 6 v -> 1 < v -> read_mo content = MoErr.
Proof.
  intros c bo v M V Hv. destruct (read_mo_total c) as [[f E]|E]; [|exact E]. exfalso.
  apply read_mo_spec in E as (bo' & ids & strs & (M' & (a & b & A1 & A2 & A3 & A4) & _) & _).
  pose proof (order_fun _ _ _ M M'). subst bo'.
  destruct V as [V|V]; [pose proof (half_at_fun _ _ _ _ _ V A1)|pose proof (half_at_fun _ _ _ _ _ V A2)]; lia.
Qed.
Print Assumptions C32_version.
Example C32_case : exists content f, read_mo content = MoOk f /\ f_entries f <> []
  /\ read_mo (B "x" ++ content) = MoErr
  /\ read_mo (firstn 4 content ++ byte_of 2 :: skipn 5 content) = MoErr.
Proof. exists (mo_bytes [ex_header; ex_two]). eexists. split; [vm_compute; reflexivity|]. split; [discriminate|]. split; vm_compute; reflexivity. Qed.

(** ** C33: byte order does not matter *)
Theorem C33_byte_order : forall content content' ids strs,
  stores LE content ids strs -> stores BE content' ids strs ->
  read_mo content = read_mo content' /\ exists f, read_mo content = MoOk f.
Proof.
  intros c c' ids strs H H'.
  assert (R : read_mo c = MoOk (catalog_of ids strs)) by (apply read_mo_spec; eauto).
  assert (R' : read_mo c' = MoOk (catalog_of ids strs)) by (apply read_mo_spec; eauto).
  split; [congruence|eauto].
Qed.
Print Assumptions C33_byte_order.
(** the same file in both byte orders *)
Definition ex_words (bo : border) : bytes :=
  concat (map (put32 bo) [0x950412de; 0; 1; 28; 36; 0; 0;  3; 44;  3; 48]) ++ B "abc" ++ NUL :: B "xyz" ++ [NUL].
Example C33_case : stores LE (ex_words LE) [B "abc"] [B "xyz"] /\ stores BE (ex_words BE) [B "abc"] [B "xyz"].
Proof. split; apply storesb_ok; vm_compute; reflexivity. Qed.

(** ** C34: a truncated .mo file is rejected *)
(** a prefix of any content is never read as anything else *)
Theorem C34_prefix : forall p q, read_mo p = MoErr \/ read_mo p = read_mo (p ++ q).
Proof.
  intros p q. destruct (read_mo_total p) as [[f E]|E]; [right|left; exact E].
  rewrite (read_mo_app p q f E). exact E.
Qed.
Print Assumptions C34_prefix.
(** if only the last byte is missing nothing is lost *)
Theorem C34_last_byte : forall f out p x, saves_mo f out -> N.of_nat (length out) < 2 ^ 32 ->
  out = p ++ [x] -> read_mo p = read_mo out.
Proof. intros f out p x (l & _ & ->) L E. apply (last_byte l p x E L). Qed.
Print Assumptions C34_last_byte.
(** Full statement: every prefix that misses two or more bytes is rejected.
    Proved if the last string of the file is not empty, refuted otherwise (by
    [C34_prefix] nothing is lost then either) *)
Theorem C34_rejected_partial : forall f out p q ids strs s, saves_mo f out -> N.of_nat (length out) < 2 ^ 32 ->
  stores LE out ids (strs ++ [s]) -> s <> [] -> out = p ++ q -> (2 <= length q)%nat -> read_mo p = MoErr.
Proof.
  intros f out p q ids strs s (l & _ & ->) L St Ne E Lq.
  destruct (stores_fun _ _ _ _ _ _ _ St (mo_stores l L)) as (_ & _ & Es).
  destruct l as [|e l _] using rev_ind; [destruct strs; discriminate|]. rewrite map_app in Es. cbn [map] in Es.
  apply app_inj_tail in Es as [_ Es]. apply (truncated l e p q E L); [congruence|exact Lq].
Qed.
Print Assumptions C34_rejected_partial.
Theorem C34_rejected_refuted : exists f out p q f', filed f /\ saves_mo f out /\ out = p ++ q /\ (2 <= length q)%nat
  /\ f_entries f <> [] /\ read_mo p = MoOk f'.
Proof.
  pose (e := mk [] [] (B "a") false [] [] []). exists (add_entry new_file e). eexists.
  exists (firstn 92 (mo_bytes [e])), (skipn 92 (mo_bytes [e])). eexists.
  split; [apply built_filed; exists [e]; reflexivity|].
  split; [exists [e]; split; [split; [apply Permutation_refl|sorted]|reflexivity]|].
  split; [symmetry; apply firstn_skipn|]. split; [vm_compute; lia|]. split; [discriminate|]. vm_compute. reflexivity.
Qed.
Print Assumptions C34_rejected_refuted.
(** exactly: a prefix of a saved file is accepted if it has the header, both
    tables and all bytes of the strings, without the NUL bytes behind the last
    ones *)
Theorem C34_exactly : forall f out p q, saves_mo f out -> N.of_nat (length out) < 2 ^ 32 -> out = p ++ q ->
  let n := N.of_nat (length (f_entries f)) in
  (read_mo p <> MoErr <-> 28 <= N.of_nat (length p) /\ (n = 0 \/ 75 + 16 * n <= N.of_nat (length p))
     /\ forall i k off, N.of_nat i < 2 * n -> table_entry out 75 i k off -> k = 0 \/ off + k <= N.of_nat (length p)).
Proof.
  intros f out p q (l & [P _] & ->) L E n.
  assert (En : n = N.of_nat (length l)) by (unfold n; rewrite (Permutation_length P); unfold vals; rewrite map_length; reflexivity).
  pose proof (prefix_accepted l p q E L) as H. cbn zeta in H. rewrite <- En in H. unfold len in H.
  transitivity (exists f', read_mo p = MoOk f').
  - destruct (read_mo_total p) as [[f' R]|R]; rewrite R; split; intros Q; [eauto|discriminate|congruence|destruct Q; discriminate].
  - rewrite H. split; intros (H1 & H2 & H3); (split; [exact H1|split; [exact H2|]]); intros i k off Hi; apply H3; lia.
Qed.
Print Assumptions C34_exactly.
Example C34_case : exists ids strs s, stores LE (mo_bytes [ex_header; ex_two]) ids (strs ++ [s]) /\ s <> [].
Proof.
  exists (map mo_id [ex_header; ex_two]), [mo_str ex_header], (mo_str ex_two).
  split; [exact (mo_stores [ex_header; ex_two] eq_refl)|discriminate].
Qed.

(** ** C35: .po and .mo give the same translations.
    Full statement: the same answers to Lang, X and XN64.  Lang, the headers
    and X are always the same; XN64 is, unless the entry has no translation *)
Theorem C35_same_partial : forall isp f out out', filed f ->
  (forall e, In e (vals (f_entries f)) -> po_ok e /\ mo_ok e /\ (e_id e = [] -> e_ctxt e = [])) ->
  f_entries f <> [] -> saves_po isp f out -> saves_mo f out' -> N.of_nat (length out') < 2 ^ 32 ->
  exists f1 f2, read_po out = PoOk f1 /\ read_mo out' = MoOk f2
    /\ fst (lang f1) = fst (lang f2)
    /\ (forall h, fst (get_header h f1) = fst (get_header h f2))
    /\ forall A (fmt : bytes -> list A -> bytes) c i args, f_x fmt f1 c i args = f_x fmt f2 c i args
       /\ forall i2 n, (forall e, mget (key c i) (f_entries f) = Some e -> translated e) ->
            fst (f_xn64 fmt f1 c i i2 n args) = fst (f_xn64 fmt f2 c i i2 n args).
Proof.
  intros isp f out out' F G Ne Sp Sm L.
  destruct (po_mo_same isp f out out' F G Ne Sp Sm L) as (f1 & f2 & R1 & R2 & C1 & C2 & K).
  exists f1, f2. split; [exact R1|]. split; [exact R2|]. pose proof (agree_headers f1 f2 K) as H.
  assert (Hg : forall h, fst (get_header h f1) = fst (get_header h f2)) by (intros h; rewrite !canon_header by assumption; congruence).
  split; [|split; [exact Hg|]].
  - specialize (Hg H_language). unfold lang. destruct (get_header H_language f1), (get_header H_language f2).
    cbn [fst] in *. congruence.
  - intros A fmt c i args. split; [apply answers_x, K|]. intros i2 n T. apply answers_xn; auto.
    destruct (K (key c i)) as [Q|(_ & e & E & Ne')]; [exact Q|]. exfalso.
    assert (Gm : forall e, In e (vals (f_entries f)) -> mo_ok e) by (intros x Hx; apply G, Hx).
    destruct (mo_round_trip f out' F Gm Sm L) as (f2' & R2' & _ & Q2). rewrite R2 in R2'. injection R2' as <-.
    rewrite Q2 in E. destruct (mget (key c i) (f_entries f)) as [x|]; [|discriminate]. cbn [option_map] in E.
    injection E as <-. apply Ne'. exact (T x eq_refl).
Qed.
Print Assumptions C35_same_partial.
Example C35_case : (forall e, In e (vals (f_entries ex_file)) -> po_ok e /\ mo_ok e /\ (e_id e = [] -> e_ctxt e = []))
  /\ f_entries ex_file <> [].
Proof.
  split; [|discriminate]. intros e H. split; [|split; [apply C29_case, H|]].
  - destruct H as [<-|[<-|[<-|[]]]]; (split; [|cbn; auto]); intros c Hc;
      repeat (destruct Hc as [<-|Hc]; [split; [eexists; reflexivity|split; absent]|]); destruct Hc.
  - destruct H as [<-|[<-|[<-|[]]]]; auto; discriminate.
Qed.
(** ... and exactly: the two catalogs answer a plural question differently if
    and only if the entry asked for is there without a translation, and the
    caller's own two forms differ for this number *)
Theorem C35_exactly : forall isp f out out', filed f ->
  (forall e, In e (vals (f_entries f)) -> po_ok e /\ mo_ok e /\ (e_id e = [] -> e_ctxt e = [])) ->
  f_entries f <> [] -> saves_po isp f out -> saves_mo f out' -> N.of_nat (length out') < 2 ^ 32 ->
  exists f1 f2, read_po out = PoOk f1 /\ read_mo out' = MoOk f2
    /\ forall A (fmt : bytes -> list A -> bytes) c i i2 n args,
         fst (f_xn64 fmt f1 c i i2 n args) <> fst (f_xn64 fmt f2 c i i2 n args)
         <-> (exists e, mget (key c i) (f_entries f) = Some e /\ ~ translated e)
             /\ i2 <> [] /\ n <> 1%Z /\ fmt i2 args <> fmt i args.
Proof.
  intros isp f out out' F G Ne Sp Sm L.
  destruct (C35_same_partial isp f out out' F G Ne Sp Sm L) as (f1 & f2 & R1 & R2 & _ & _ & K).
  exists f1, f2. split; [exact R1|]. split; [exact R2|]. intros A fmt c i i2 n args.
  destruct (po_round_trip isp f out F (fun e H => proj1 (G e H)) Ne Sp) as (f1' & R1' & _ & Q1). rewrite R1 in R1'. injection R1' as <-.
  destruct (mo_round_trip f out' F (fun e H => proj1 (proj2 (G e H))) Sm L) as (f2' & R2' & _ & Q2). rewrite R2 in R2'. injection R2' as <-.
  assert (D : (exists e, mget (key c i) (f_entries f) = Some e /\ ~ translated e)
              \/ forall e, mget (key c i) (f_entries f) = Some e -> translated e).
  { destruct (mget (key c i) (f_entries f)) as [e|]; [|right; discriminate].
    destruct (is_valid e) eqn:V.
    - right. intros x [= <-]. apply translated_valid, V.
    - left. exists e. split; [reflexivity|]. rewrite <- translated_valid. congruence. }
  destruct D as [(e & E & T)|T].
  - assert (E1 : mget (key c i) (f_entries f1) = None).
    { destruct (mget (key c i) (f_entries f1)) as [x|] eqn:E1; [|reflexivity]. exfalso. apply Q1 in E1 as [E1 T1]. congruence. }
    assert (E2 : mget (key c i) (f_entries f2) = Some (strip e)) by (rewrite Q2, E; reflexivity).
    assert (Z0 : e_str e = [] /\ e_strn e = []).
    { unfold translated in T. destruct (e_str e); [|exfalso; apply T; left; discriminate].
      destruct (e_strn e); [auto|exfalso; apply T; right; discriminate]. }
    destruct Z0 as [Z1 Z2].
    assert (Z3 : e_id2 e = []).
    { destruct (G e) as (_ & (_ & _ & _ & M) & _).
      { pose proof (filed_get _ _ _ F E) as Ek. rewrite Ek in E. apply filed_in in E; [exact E|exact F]. }
      destruct (e_plural e); [|apply M]. destruct M as (_ & M & _). congruence. }
    unfold f_xn64. rewrite E1, E2. cbn [strip e_id2 e_strn e_str]. rewrite Z1, Z2, Z3. cbn [is_empty andb negb fst].
    unfold default_plural. destruct i2 as [|b i2]; cbn [is_empty].
    + split; [congruence|]. intros (_ & H & _). congruence.
    + destruct (n =? 1)%Z eqn:N1; cbn [negb].
      * apply Z.eqb_eq in N1. split; [congruence|]. intros (_ & _ & H & _). congruence.
      * apply Z.eqb_neq in N1. split.
        -- intros H. split; [eauto|]. split; [discriminate|]. split; [exact N1|]. congruence.
        -- intros (_ & _ & _ & H) [= H']. congruence.
  - destruct (K A fmt c i args) as [_ K2]. specialize (K2 i2 n T). split; [contradiction|].
    intros ((e & E & T') & _). exfalso. exact (T' (T e E)).
Qed.
Print Assumptions C35_exactly.
(** an untranslated entry hides the plural of the caller in the .mo catalog *)
Theorem C35_untranslated_refuted : exists f out out' f1 f2, filed f
  /\ (forall e, In e (vals (f_entries f)) -> po_ok e /\ mo_ok e)
  /\ saves_po (fun _ => true) f out /\ saves_mo f out' /\ read_po out = PoOk f1 /\ read_mo out' = MoOk f2
  /\ f_xn64 (fun s (_ : list unit) => s) f1 [] (B "file") (B "files") 2 []
     <> f_xn64 (fun s (_ : list unit) => s) f2 [] (B "file") (B "files") 2 [].
Proof.
  pose (e := mk [] [] (B "file") false [] [] []). exists (add_entry new_file e). do 4 eexists.
  split; [apply built_filed; exists [e]; reflexivity|].
  split.
  { intros x [<-|[]]. split; [split; [intros c []|cbn; auto]|fits]. }
  split; [exists [e]; split; [split; [apply Permutation_refl|sorted]|reflexivity]|].
  split; [exists [e]; split; [split; [apply Permutation_refl|sorted]|reflexivity]|].
  split; [vm_compute; reflexivity|]. split; [vm_compute; reflexivity|].
  vm_compute. discriminate.
Qed.
Print Assumptions C35_untranslated_refuted.
