(** Property C100: what a .mo file holds survives loading and saving, as .mo file and as .po file. *)
From Coq Require Import Lia ZifyBool ZifyNat ZifyN Permutation.
From Verif Require Import GoStr GoStrFacts GoMap GoMapFacts FileModel FileSpec FileFacts FormsFacts PoModel PoSpec PoReadFacts
  SortFacts PoSameFacts PoWriteFacts PoCatalogFacts MoModel MoSpec MoFacts MoCatalogFacts MoAnySpec MoAnyFacts PoLoadFacts MoLoadFacts
  OrderSpec OrderFacts PropertiesOrder.
Local Open Scope N_scope.

(** ** As .mo file *)
(** Whatever .mo file was read, saving the catalog and reading the result gives the same
    entries exactly if no entry without context has the separator of contexts in its ids, ... *)
Theorem C100_entries : forall content f out, read_mo content = MoOk f -> saves_mo f out -> N.of_nat (length out) < 2 ^ 32 ->
  ((exists f', read_mo out = MoOk f' /\ forall k, mget k (f_entries f') = mget k (f_entries f))
   <-> forall e, In e (vals (f_entries f)) -> e_ctxt e = [] -> ~ In EOT (e_id e) /\ ~ In EOT (e_id2 e)).
Proof.
  intros content f out R W L. pose proof (mo_round_trip_iff f out (proj2 (mo_load_filed content f R)) W L) as Q. split.
  - intros (f' & R' & E) e I. destruct (mo_load_means content f R e I) as (id & str & M). apply (means_mo_ok _ _ _ M).
    apply (proj1 Q); [|exact I]. exists f'. split; [exact R'|]. intros k. rewrite E, (mo_load_strip content f R). reflexivity.
  - intros H. destruct (proj2 Q) as (f' & R' & E).
    + intros e I. destruct (mo_load_means content f R e I) as (id & str & M). apply (means_mo_ok _ _ _ M), H, I.
    + exists f'. split; [exact R'|]. intros k. rewrite E. apply (mo_load_strip content f R).
Qed.
Print Assumptions C100_entries.
(** ... which is so for every file in which no id begins with that separator. *)
Theorem C100_files : forall content bo ids strs, stores bo content ids strs -> (forall id, In id ids -> ~ starts [EOT] id) ->
  exists f, read_mo content = MoOk f /\ forall out, saves_mo f out -> N.of_nat (length out) < 2 ^ 32 ->
    exists f', read_mo out = MoOk f' /\ forall k, mget k (f_entries f') = mget k (f_entries f).
Proof.
  intros content bo ids strs Q H. assert (R : read_mo content = MoOk (MoFacts.catalog_of ids strs)) by (apply read_mo_spec; eauto 6).
  eexists. split; [exact R|]. intros out W L. apply (C100_entries content _ out R W L). intros e I.
  destruct (loaded_means _ _ _ _ _ _ Q eq_refl I) as (id & str & I1 & _ & M). exact (means_start _ _ _ M (H id I1)).
Qed.
Print Assumptions C100_files.
(** The same bytes are written again exactly if there is one header at most. *)
Theorem C100_bytes : forall content f, read_mo content = MoOk f ->
  (forall e, In e (vals (f_entries f)) -> e_ctxt e = [] -> ~ In EOT (e_id e) /\ ~ In EOT (e_id2 e)) ->
  (forall out, saves_mo f out -> N.of_nat (length out) < 2 ^ 32) ->
  ((forall out f' out', saves_mo f out -> read_mo out = MoOk f' -> saves_mo f' out' -> out' = out)
   <-> forall e e', In e (vals (f_entries f)) -> In e' (vals (f_entries f)) -> e_id e = [] -> e_id e' = [] -> e = e').
Proof.
  intros content f R H L. destruct (mo_load_filed content f R) as [_ F].
  assert (Ok : forall e, In e (vals (f_entries f)) -> mo_ok e).
  { intros e I. destruct (mo_load_means content f R e I) as (id & str & M). apply (means_mo_ok _ _ _ M), H, I. }
  assert (Sv : forall out f', saves_mo f out -> read_mo out = MoOk f' -> forall o, saves_mo f' o <-> saves_mo f o).
  { intros out f' W R' o. destruct (proj2 (C100_entries content f out R W (L out W)) H) as (g & Rg & E).
    rewrite R' in Rg. injection Rg as <-.
    assert (P : Permutation (vals (f_entries f')) (vals (f_entries f))).
    { apply filed_same; [exact (built_filed _ (read_mo_built _ _ R'))|exact F|exact E]. }
    split; intros (l & [Pl Sl] & ->); exists l; (split; [|reflexivity]); (split; [|exact Sl]).
    - exact (Permutation_trans Pl P).
    - exact (Permutation_trans Pl (Permutation_sym P)). }
  pose proof (C27_mo_exactly f F L) as D. split.
  - intros U e e' I I' E E'.
    assert (U' : forall out out', saves_mo f out -> saves_mo f out' -> out = out').
    { intros out out' W W'. destruct (proj2 (C100_entries content f out R W (L out W)) H) as (g & Rg & _).
      symmetry. apply (U out g out' W Rg), (Sv out g W Rg), W'. }
    destruct (proj1 D U' e e' I I') as (s & t & A1 & A2 & B1 & B2).
    { apply tied_key. unfold sort_key, is_header. rewrite E, E'. reflexivity. }
    apply stored_id_fun in A1, A2. apply stored_str_fun in B1, B2.
    rewrite <- (strip_same e), <- (strip_same e') by (apply (mo_load_cmts content f R); assumption).
    rewrite <- (entry_back e), <- (entry_back e') by (apply Ok; assumption). congruence.
  - intros U out f' out' W R' W'. apply (Sv out f' W R') in W'. apply (proj2 D); [|exact W'|exact W].
    intros e e' I I' T. apply tied_key in T.
    assert (e = e') as <-.
    { destruct (mo_load_sort content f R e e' I I' T) as [E|[E E']]; [exact E|]. apply U; assumption. }
    exists (mo_id e), (mo_str e). repeat split; try (apply stored_id_fun; reflexivity); apply stored_str_fun; reflexivity.
Qed.
Print Assumptions C100_bytes.
(** The same answers are given exactly if the headers that count are those of the header entry
    in the catalog; they are not if a file defines its header twice. *)
Theorem C100_answers : forall content f out, read_mo content = MoOk f -> saves_mo f out -> N.of_nat (length out) < 2 ^ 32 ->
  (forall e, In e (vals (f_entries f)) -> e_ctxt e = [] -> ~ In EOT (e_id e) /\ ~ In EOT (e_id2 e)) ->
  (forall e, In e (vals (f_entries f)) -> e_id e = [] -> e_ctxt e = []) ->
  ((exists f', read_mo out = MoOk f' /\ same_answers f f')
   <-> forall k, fst (get_header k f) = header_value (f_x (fun s (_ : list nat) => s) f [] [] []) k).
Proof.
  intros content f out R W L H One. destruct (mo_load_filed content f R) as [B F].
  assert (Q : exists f', read_mo out = MoOk f' /\ (forall k, mget k (f_entries f') = mget k (f_entries f))
    /\ forall k, fst (get_header k f') = header_value (head_text f) k).
  { destruct (proj2 (C100_entries content f out R W L) H) as (f' & R' & E). exists f'. split; [exact R'|]. split; [exact E|].
    destruct W as (l & [P Sl] & ->).
    assert (Ok : forall e, In e l -> mo_ok e).
    { intros e I. apply (Permutation_in e P) in I. destruct (mo_load_means content f R e I) as (id & str & M). apply (means_mo_ok _ _ _ M), H, I. }
    rewrite (read_mo_bytes l Ok L) in R'. injection R' as <-. intros k.
    replace (map strip l) with l; [apply sorted_headers; [exact F|exact One|split; assumption]|].
    rewrite <- (map_id l) at 1. apply map_ext_in. intros e I. symmetry. apply strip_same, (mo_load_cmts content f R), (Permutation_in e P), I. }
  destruct Q as (f' & R' & E & Hd). split.
  - intros (g & Rg & _ & _ & A & _) k. rewrite R' in Rg. injection Rg as <-. rewrite A. apply Hd.
  - intros A. exists f'. split; [exact R'|]. apply same_entries_answers; [exact B|exact (read_mo_built _ _ R')| |].
    + intros k. symmetry. apply E.
    + intros k. rewrite A. symmetry. apply Hd.
Qed.
Print Assumptions C100_answers.

(** ** As .po file *)
(** Every .mo file with an entry can be turned into a .po file; every entry with a
    translation is read back, whatever bytes it has. *)
Theorem C100_po : forall isp content f out, read_mo content = MoOk f -> f_entries f <> [] -> saves_po isp f out ->
  exists f', read_po out = PoOk f' /\ forall k e, mget k (f_entries f') = Some e <-> mget k (f_entries f) = Some e /\ translated e.
Proof.
  intros isp content f out R Ne W. destruct (mo_load_filed content f R) as [_ F].
  destruct (po_round_trip isp f out F) as (f' & R' & _ & E); [|exact Ne|exact W|eauto].
  intros e I. destruct (mo_load_means content f R e I) as (id & str & M). exact (means_po_ok _ _ _ M).
Qed.
Print Assumptions C100_po.
(** The .po file answers as the .mo file, if the headers that count are those of the header
    entry: always about single texts, and about plurals of entries with a translation. *)
Theorem C100_po_answers : forall isp content f out, read_mo content = MoOk f -> f_entries f <> [] -> saves_po isp f out ->
  (forall e, In e (vals (f_entries f)) -> e_id e = [] -> e_ctxt e = []) ->
  (forall k, fst (get_header k f) = header_value (f_x (fun s (_ : list nat) => s) f [] [] []) k) ->
  exists f', read_po out = PoOk f' /\ fst (lang f') = fst (lang f) /\ (forall k, fst (get_header k f') = fst (get_header k f))
    /\ forall A (fmt : bytes -> list A -> bytes) c i args, f_x fmt f' c i args = f_x fmt f c i args
       /\ forall i2 n, (forall e, mget (key c i) (f_entries f) = Some e -> translated e) ->
            fst (f_xn64 fmt f' c i i2 n args) = fst (f_xn64 fmt f c i i2 n args).
Proof.
  intros isp content f out R Ne W One A. destruct (mo_load_filed content f R) as [B F].
  destruct (C100_po isp content f out R Ne W) as (f' & R' & E). exists f'. split; [exact R'|].
  pose proof (read_built _ _ _ R') as B'.
  assert (C : canon f').
  { destruct W as (l & [P Sl] & ->).
    assert (Nl : l <> []) by (intros ->; apply Permutation_nil in P; unfold vals in P; apply map_eq_nil in P; congruence).
    rewrite (read_po_text isp l Nl) in R'.
    2:{ intros e I. apply (Permutation_in e P) in I. destruct (mo_load_means content f R e I) as (id & str & M). exact (means_po_ok _ _ _ M). }
    assert (Ef : f' = fold_left (addif false) l new_file) by congruence. rewrite Ef, fold_filter.
    apply canon_fold; [apply nodup_filter, (nodup_keys f l F P)|].
    intros e He. apply filter_In in He as [He _]. apply One, (Permutation_in e P), He. }
  assert (K : forall k, agree (mget k (f_entries f')) (mget k (f_entries f))
    \/ (mget k (f_entries f') = None /\ exists e, mget k (f_entries f) = Some e /\ ~ translated e)).
  { intros k. destruct (mget k (f_entries f)) as [e|] eqn:G.
    - destruct (is_valid e) eqn:V.
      + left. apply translated_valid in V. rewrite (proj2 (E k e) (conj G V)). reflexivity.
      + right. assert (T : ~ translated e) by (rewrite <- translated_valid; congruence). split; [|eauto].
        destruct (mget k (f_entries f')) as [x|] eqn:G'; [|reflexivity]. exfalso. apply E in G' as [G' T']. congruence.
    - left. destruct (mget k (f_entries f')) as [x|] eqn:G'; [|reflexivity]. apply E in G' as [G' _]. congruence. }
  assert (Hd : forall k, fst (get_header k f') = fst (get_header k f)).
  { intros k. rewrite A, (canon_header _ k C), (agree_headers f' f K). unfold hdrs, f_x.
    destruct (mget (key [] []) (f_entries f)) as [e|]; [|reflexivity]. rewrite parse_headers_get. destruct (e_str e); reflexivity. }
  split; [|split; [exact Hd|]].
  - specialize (Hd H_language). unfold lang. destruct (get_header H_language f'), (get_header H_language f). cbn [fst] in *. congruence.
  - intros X fmt c i args. split; [apply answers_x, K|]. intros i2 n T.
    pose proof (same_headers f' f B' B Hd) as Pl.
    assert (G : mget (key c i) (f_entries f') = mget (key c i) (f_entries f)).
    { destruct (mget (key c i) (f_entries f)) as [e|] eqn:G; [apply E; split; [exact G|apply T; reflexivity]|].
      destruct (mget (key c i) (f_entries f')) as [e|] eqn:G'; [|reflexivity]. apply E in G' as [G' _]. congruence. }
    unfold f_xn64. rewrite G, Pl. destruct (mget (key c i) (f_entries f)) as [e|]; [|reflexivity].
    destruct (_ && _); [reflexivity|]. destruct (f_plural (init_plural f)) as [p|]; [|reflexivity].
    destruct (_ <=? _)%Z; [reflexivity|]. destruct (_ || _); [reflexivity|].
    destruct (nth_error _ _) as [s|]; [|reflexivity]. destruct (is_empty s); reflexivity.
Qed.
Print Assumptions C100_po_answers.

(** ** Cases *)
Definition mk c k i p i2 s n : entry :=
  {| e_cmts := c; e_ctxt := k; e_id := i; e_plural := p; e_id2 := i2; e_str := s; e_strn := n |}.
Definition l_header : entry := mk [] [] [] false [] (B "Language: de" ++ NL :: B "Plural-Forms: nplurals=2; plural=n != 1;" ++ [NL]) [].
Definition l_one : entry := mk [] (B "menu") (B "open") false [] (B "oeffnen") [].
Definition l_two : entry := mk [] [] (B "file") true (B "files") [] [B "Datei"; B "Dateien"].
Definition l_bytes : bytes := mo_bytes [l_two; l_one; l_header].
Definition l_file : file := fold_left add_entry [l_two; l_one; l_header] new_file.
(** a file whose strings are in another order than that of this library *)
Example C100_case : read_mo l_bytes = MoOk l_file /\ f_entries l_file <> []
  /\ stores LE l_bytes [mo_id l_two; mo_id l_one; mo_id l_header] [mo_str l_two; mo_str l_one; mo_str l_header]
  /\ (forall id, In id [mo_id l_two; mo_id l_one; mo_id l_header] -> ~ starts [EOT] id)
  /\ (forall e, In e (vals (f_entries l_file)) -> e_ctxt e = [] -> ~ In EOT (e_id e) /\ ~ In EOT (e_id2 e))
  /\ (forall e, In e (vals (f_entries l_file)) -> e_id e = [] -> e_ctxt e = [])
  /\ (forall k, fst (get_header k l_file) = header_value (f_x (fun s (_ : list nat) => s) l_file [] [] []) k)
  /\ saves_mo l_file (mo_bytes [l_header; l_two; l_one])
  /\ mo_bytes [l_header; l_two; l_one] <> l_bytes.
Proof.
  split; [vm_compute; reflexivity|]. split; [discriminate|].
  split; [exact (mo_stores [l_two; l_one; l_header] eq_refl)|].
  split; [intros id [<-|[<-|[<-|[]]]] [t H]; discriminate|].
  assert (N : forall s, existsb (Ascii.eqb EOT) s = false -> ~ In EOT s) by (intros s H Q; apply existsb_in in Q; congruence).
  split.
  { intros e [<-|[<-|[<-|[]]]] C; try discriminate C; split; apply N; reflexivity. }
  split; [intros e [<-|[<-|[<-|[]]]] C; try discriminate C; reflexivity|].
  split.
  { intros k. unfold l_file. change (fold_left add_entry [l_two; l_one; l_header] new_file)
      with (add_entry (fold_left add_entry [l_two; l_one] new_file) l_header).
    assert (Cn : canon l_file).
    { apply canon_fold; [repeat constructor; cbn; intros Q; repeat destruct Q as [Q|Q]; try discriminate Q; try destruct Q|].
      intros e [<-|[<-|[<-|[]]]] C; try discriminate C; reflexivity. }
    change (add_entry (fold_left add_entry [l_two; l_one] new_file) l_header) with l_file.
    rewrite (canon_header _ k Cn). change (hdrs l_file) with (parse_headers (e_str l_header)). rewrite parse_headers_get. reflexivity. }
  split.
  - exists [l_header; l_two; l_one]. split; [|reflexivity]. split.
    + change (vals (f_entries l_file)) with [l_two; l_one; l_header].
      exact (Permutation_cons_append [l_two; l_one] l_header).
    + cbn [sorted_by_key]. repeat split; try (intros x Hx; repeat destruct Hx as [<-|Hx]; try destruct Hx; vm_compute; reflexivity).
  - intros H. vm_compute in H. discriminate.
Qed.
(** an id that begins with the separator comes back under another key *)
Definition odd_bytes : bytes := put32 LE mo_magic ++ put32 LE 0 ++ put32 LE 1 ++ put32 LE 28 ++ put32 LE 36 ++ put32 LE 0 ++ put32 LE 0
  ++ put32 LE 4 ++ put32 LE 44 ++ put32 LE 1 ++ put32 LE 49 ++ EOT :: B "a" ++ EOT :: B "b" ++ NUL :: B "x" ++ [NUL].
Definition odd_entry : entry := mk [] [] (B "a" ++ EOT :: B "b") false [] (B "x") [].
Definition odd_file : file := add_entry new_file odd_entry.
Example C100_odd : read_mo odd_bytes = MoOk odd_file /\ saves_mo odd_file (mo_bytes [odd_entry])
  /\ exists f', read_mo (mo_bytes [odd_entry]) = MoOk f' /\ mget (key [] (B "a" ++ EOT :: B "b")) (f_entries f') = None
     /\ mget (key (B "a") (B "b")) (f_entries f') = Some (mk [] (B "a") (B "b") false [] (B "x") []).
Proof.
  split; [vm_compute; reflexivity|]. split.
  - exists [odd_entry]. split; [|reflexivity]. split; [apply Permutation_refl|]. split; [intros x []|exact I].
  - eexists. split; [vm_compute; reflexivity|]. split; vm_compute; reflexivity.
Qed.
