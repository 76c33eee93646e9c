(** Properties of loading a file tree: which file of the tree decides. *)
From Coq Require Import Lia Permutation.
From Verif Require Import GoStr GoStrFacts GoMap FileModel PoModel MoModel MoFacts TransModel TransSpec TransFacts TransViewFacts TransLoadFacts PoSpec PoCatalogFacts MoSpec MoCatalogFacts DeployFacts FsModel FsSpec FsFacts PropertiesTrans.

Section Props.
Context {A : Type}.
Variable fmt : bytes -> list A -> bytes.
Variable norm : bytes -> bytes.
Implicit Types s : @state A.

(** content that is a catalog of language [l] *)
Definition po_of (l c : bytes) : Prop := exists f, as_po c = Some f /\ speaks norm l f.
Definition mo_of (l c : bytes) : Prop := exists f, as_mo c = Some f /\ speaks norm l f.
(** binding the tree [t] to domain [d] of handle [h] *)
Definition bind_tree s h d t : @state A := bind_fs norm s h d (walk_dir (Some t)) (walk_dir (Some t)).

(** ** C59: which file of a directory tree decides *)
Theorem C59_po : forall s h d t l c f, reach fmt norm s -> h < length (s_ts s) -> distinct t ->
  latest t (B ".po") (po_of l) c -> as_po c = Some f ->
  answers_from fmt (retarget (bind_tree s h d t) h d l) h f.
Proof.
  intros s h d t l c f R H D L E.
  destruct (C39_po_over_mo fmt norm s h d (events t) (events t) l R H (events_honest t) (events_honest t)) as [W _].
  - right. apply loaded_po; [exact D|]. destruct L as (p & V & N & _). exists p, c. split; [exact V|split; [exact N|congruence]].
  - apply W. left. exact (latest_last t _ as_po (speaks norm l) c f D L E).
Qed.
Theorem C59_mo : forall s h d t l c f, reach fmt norm s -> h < length (s_ts s) -> distinct t ->
  nowhere t (B ".po") (po_of l) -> latest t (B ".mo") (mo_of l) c -> as_mo c = Some f ->
  answers_from fmt (retarget (bind_tree s h d t) h d l) h f.
Proof.
  intros s h d t l c f R H D N L E.
  destruct (C39_po_over_mo fmt norm s h d (events t) (events t) l R H (events_honest t) (events_honest t)) as [W _].
  - left. apply loaded_mo; [exact D|]. destruct L as (p & V & Np & _). exists p, c. split; [exact V|split; [exact Np|congruence]].
  - apply W. right. split; [apply (nowhere_none t (B ".po") as_po (speaks norm l) D), N|].
    exact (latest_last t _ as_mo (speaks norm l) c f D L E).
Qed.
Theorem C59_none : forall s h d t l, reach fmt norm s -> h < length (s_ts s) -> distinct t ->
  nowhere t (B ".po") (po_of l) -> nowhere t (B ".mo") (mo_of l) ->
  (somewhere t (B ".po") (fun c => as_po c <> None) \/ somewhere t (B ".mo") (fun c => as_mo c <> None) ->
   source_text fmt (retarget (bind_tree s h d t) h d l) h)
  /\ (~ somewhere t (B ".po") (fun c => as_po c <> None) -> ~ somewhere t (B ".mo") (fun c => as_mo c <> None) ->
   same_view fmt norm s h (bind_tree s h d t) h).
Proof.
  intros s h d t l R H D Np Nm. split.
  - intros L. destruct (C39_po_over_mo fmt norm s h d (events t) (events t) l R H (events_honest t) (events_honest t)) as [_ S].
    + destruct L as [L|L]; [right; apply loaded_po|left; apply loaded_mo]; assumption.
    + apply S. intros f W. destruct W as [W|[_ W]]; destruct W as (a & b & E & Sp & _).
      * apply (proj1 (nowhere_none t (B ".po") as_po (speaks norm l) D) Np f); [rewrite E; apply in_or_app; right; left; reflexivity|exact Sp].
      * apply (proj1 (nowhere_none t (B ".mo") as_mo (speaks norm l) D) Nm f); [rewrite E; apply in_or_app; right; left; reflexivity|exact Sp].
  - intros L1 L2. apply (C38_nothing fmt norm s h d (events t) (events t) R H). intros [L|L]; [apply L2, loaded_mo|apply L1, loaded_po]; assumption.
Qed.
(** the tree is a single file: Load("dir/zh.po") *)
Theorem C59_single : forall s h d n c l f, reach fmt norm s -> h < length (s_ts s) -> speaks norm l f ->
  (named (B ".po") [n] /\ as_po c = Some f \/ named (B ".mo") [n] /\ as_mo c = Some f) ->
  answers_from fmt (retarget (bind_tree s h d (NFile n (Content c))) h d l) h f.
Proof.
  intros s h d n c l f R H Sp Hn. set (t := NFile n (Content c)).
  assert (D : distinct t) by constructor.
  assert (V : visible t [n] c) by (split; [constructor|intros q Hq; inversion Hq]).
  assert (O : forall q c', visible t q c' -> q = [n] /\ c' = c) by (intros q c' [Ha _]; inversion Ha; auto).
  destruct Hn as [[N E]|[N E]].
  - apply (C59_po s h d t l c f R H D); [|exact E]. exists [n]. split; [exact V|]. split; [exact N|]. split; [exists f; auto|].
    intros q c' V' _ _. left. apply (O q c' V').
  - apply (C59_mo s h d t l c f R H D); [| |exact E].
    + intros q c' V' N' _. apply O in V' as [-> ->]. apply (named_iff _ []) in N, N'. pose proof (mo_not_po n N). congruence.
    + exists [n]. split; [exact V|]. split; [exact N|]. split; [exists f; auto|]. intros q c' V' _ _. left. apply (O q c' V').
Qed.
(** a path that does not exist changes nothing *)
Theorem C59_missing : forall s h d, reach fmt norm s -> h < length (s_ts s) ->
  same_view fmt norm s h (bind_fs norm s h d (walk_dir None) (walk_dir None)) h.
Proof. intros s h d R H. apply (C38_nothing fmt norm s h d _ _ R H). intros [(x & [] & _)|(x & [] & _)]. Qed.

(** ** C56 on trees: exactly the files before every unreadable directory count *)
Theorem C56_exactly : forall t ext rd f, distinct t ->
  In f (readable ext rd (walk_dir (Some t))) <-> exists p c, visible t p c /\ named ext p /\ rd c = Some f.
Proof.
  intros t ext rd f D. cbn [walk_dir]. rewrite readable_tree, in_cats. split; intros (p & c & H1 & H2 & H3); exists p, c.
  - apply seen_visible in H1; [|exact D]. split; [exact H1|]. split; [|exact H3]. apply ends_named; [eapply at_nonnil, H1|exact H2].
  - split; [apply seen_visible; assumption|]. split; [|exact H3]. apply ends_named; [eapply at_nonnil, H1|exact H2].
Qed.

(** ** C60: a saved catalog that is put into a directory and loaded answers as
    the catalog that was saved.  Full statement: to every question.  Not so for
    XN64 about entries without a translation (C35). *)
Definition deployed s h (es : list entry) : Prop :=
  (forall c i args, h_x fmt s h c i args = f_x fmt (catalog es) c i args)
  /\ forall c i i2 n args, (forall e, In e es -> e_key e = key c i -> translated e) ->
       fst (h_xn64 fmt s h c i i2 n args) = fst (f_xn64 fmt (catalog es) c i i2 n args).
Lemma deployed_from s h es f' : NoDup (map e_key es) -> (forall e, In e es -> e_id e = [] -> e_ctxt e = []) ->
  canon f' -> nearly f' (catalog es) -> answers_from fmt s h f' -> deployed s h es.
Proof.
  intros Nd Hd C N [A1 A2]. split.
  - intros c i args. rewrite A1. apply answers_x, N.
  - intros c i i2 n args T. rewrite A2. apply answers_xn; [exact C|apply catalog_canon; assumption|apply agree_headers, N|].
    destruct (N (key c i)) as [Q|(_ & e & E & Nt)]; [exact Q|]. exfalso. apply Nt. pose proof (fold_all es (key c i)) as F.
    unfold catalog in E. rewrite E in F. destruct F as [F1 F2]. apply T; assumption.
Qed.
(** the file at path [p] comes after all other catalogs of language [l] *)
Definition last_file (t : node) (ext : bytes) (P : bytes -> Prop) (p : path) (c : bytes) : Prop :=
  visible t p c /\ named ext p /\ forall q c', visible t q c' -> named ext q -> P c' -> q = p \/ path_before q p.
Theorem C60_po_partial : forall s h d t l isp es out p, reach fmt norm s -> h < length (s_ts s) -> distinct t ->
  es <> [] -> NoDup (map e_key es) -> (forall e, In e es -> po_ok e /\ (e_id e = [] -> e_ctxt e = [])) ->
  speaks norm l (catalog es) -> saves_po isp (catalog es) out -> last_file t (B ".po") (po_of l) p out ->
  deployed (retarget (bind_tree s h d t) h d l) h es.
Proof.
  intros s h d t l isp es out p R H D Ne Nd Ok Sp Sv (V & Np & L).
  destruct (deploy_po es (fun e I => proj2 (Ok e I)) isp out Ne (fun e I => proj1 (Ok e I)) Sv) as (f' & E & C & N).
  apply (deployed_from _ _ es f' Nd (fun e I => proj2 (Ok e I)) C N).
  assert (E' : as_po out = Some f') by (unfold as_po; rewrite E; reflexivity).
  apply (C59_po s h d t l out f' R H D); [|exact E']. exists p. split; [exact V|]. split; [exact Np|]. split; [|exact L].
  exists f'. split; [exact E'|]. unfold speaks. rewrite (nearly_lang es Nd (fun e I => proj2 (Ok e I)) f' C N). exact Sp.
Qed.
(** ... and exactly: an entry without a translation is as one that is not
    there, so the caller's own forms are used *)
Theorem C60_po_exactly : forall s h d t l isp es out p, reach fmt norm s -> h < length (s_ts s) -> distinct t ->
  es <> [] -> NoDup (map e_key es) -> (forall e, In e es -> po_ok e /\ (e_id e = [] -> e_ctxt e = [])) ->
  speaks norm l (catalog es) -> saves_po isp (catalog es) out -> last_file t (B ".po") (po_of l) p out ->
  forall c i i2 n args e, In e es -> e_key e = key c i -> ~ translated e ->
    fst (h_xn64 fmt (retarget (bind_tree s h d t) h d l) h c i i2 n args) =
      XStr (fmt (if is_empty i2 || (n =? 1)%Z then i else i2) args).
Proof.
  intros s h d t l isp es out p R H D Ne Nd Ok Sp Sv (V & Np & L) c i i2 n args e Ie Ek Nt.
  destruct (deploy_po es (fun e I => proj2 (Ok e I)) isp out Ne (fun e I => proj1 (Ok e I)) Sv) as (f' & E & C & N).
  assert (An : answers_from fmt (retarget (bind_tree s h d t) h d l) h f').
  { assert (E' : as_po out = Some f') by (unfold as_po; rewrite E; reflexivity).
    apply (C59_po s h d t l out f' R H D); [|exact E']. exists p. split; [exact V|]. split; [exact Np|]. split; [|exact L].
    exists f'. split; [exact E'|]. unfold speaks. rewrite (nearly_lang es Nd (fun e I => proj2 (Ok e I)) f' C N). exact Sp. }
  destruct An as [_ A2]. rewrite A2. clear A2.
  destruct (po_round_trip isp (catalog es) out (catalog_filed es)) as (f1 & R1 & _ & Q1).
  { intros x I. apply Ok, catalog_in, I. }
  { exact (catalog_nonempty es Ne). }
  { exact Sv. }
  rewrite E in R1. injection R1 as <-.
  assert (E1 : mget (key c i) (f_entries f') = None).
  { destruct (mget (key c i) (f_entries f')) as [x|] eqn:E1; [|reflexivity]. exfalso. apply Q1 in E1 as [E1 T1].
    pose proof (fold_all es (key c i)) as Fa. unfold catalog in E1. rewrite E1 in Fa. destruct Fa as [F1 F2].
    assert (x = e); [|subst; contradiction].
    clear - Nd F1 F2 Ie Ek. revert Nd F1 F2 Ie Ek. generalize (key c i) as k. induction es as [|y l IH]; [intros k _ []|].
    intros k ND. inversion ND as [|a b N1 N2]; subst. intros [->|I1] F2 [->|I2] Ek; [reflexivity| | |].
    - exfalso. apply N1. rewrite F2, <- Ek. apply in_map, I2.
    - exfalso. apply N1. rewrite Ek, <- F2. apply in_map, I1.
    - exact (IH k N2 I1 F2 I2 Ek). }
  unfold f_xn64. rewrite E1. cbn [fst]. unfold default_plural. destruct i2 as [|b i2]; [reflexivity|]. cbn [is_empty orb].
  destruct (n =? 1)%Z; reflexivity.
Qed.
Theorem C60_mo : forall s h d t l es out p, reach fmt norm s -> h < length (s_ts s) -> distinct t ->
  NoDup (map e_key es) -> (forall e, In e es -> mo_ok e /\ (e_id e = [] -> e_ctxt e = [])) ->
  speaks norm l (catalog es) -> saves_mo (catalog es) out -> (N.of_nat (length out) < 2 ^ 32)%N ->
  nowhere t (B ".po") (po_of l) -> last_file t (B ".mo") (mo_of l) p out ->
  answers_from fmt (retarget (bind_tree s h d t) h d l) h (catalog es).
Proof.
  intros s h d t l es out p R H D Nd Ok Sp Sv Lo Np (V & Nm & L).
  destruct (deploy_mo es (fun e I => proj2 (Ok e I)) out (fun e I => proj1 (Ok e I)) Sv Lo) as (f' & E & C & N).
  assert (An : answers_from fmt (retarget (bind_tree s h d t) h d l) h f').
  { assert (E' : as_mo out = Some f') by (unfold as_mo; rewrite E; reflexivity).
    apply (C59_mo s h d t l out f' R H D Np); [|exact E']. exists p. split; [exact V|]. split; [exact Nm|]. split; [|exact L].
    exists f'. split; [exact E'|]. unfold speaks. rewrite (nearly_lang es Nd (fun e I => proj2 (Ok e I)) f' C); [exact Sp|].
    intros k; left; apply N. }
  assert (N' : nearly f' (catalog es)) by (intros k; left; apply N).
  destruct An as [A1 A2]. split.
  - intros c i args. rewrite A1. apply answers_x, N'.
  - intros c i i2 n args. rewrite A2. apply answers_xn; [exact C| |apply agree_headers, N'|apply N].
    apply catalog_canon; [exact Nd|exact (fun e I => proj2 (Ok e I))].
Qed.
End Props.

(** ** examples *)
Definition ex_tree : node :=
  NDir (B ".") (Some [NFile (B "z.po") (Content (ex_po "zh" "ni hao"));
                      NDir (B "sub") (Some [NFile (B "zh.po") (Content (ex_po "zh" "nin hao")); NFile (B "x.po") Unreadable]);
                      NFile (B "a.po") (Content (ex_po "zh" "hao"));
                      NFile (B "zz.txt") (Content (ex_po "zh" "no"))]).
Lemma ex_distinct : distinct ex_tree.
Proof.
  assert (N : forall a b : bytes, beq a b = false -> a <> b).
  { intros a b E ->. rewrite beq_refl in E. discriminate. }
  repeat (constructor || (intros t [<-|I]; [|revert t I]) || (intros t []));
    cbn [map node_name In]; intros I; repeat (destruct I as [I|I]; [apply N in I; [exact I|vm_compute; reflexivity]|]); exact I.
Qed.
(** sub/zh.po comes before z.po *)
Example C59_case : reach ex_fmt ex_norm ex0 /\ distinct ex_tree /\ latest ex_tree (B ".po") (po_of ex_norm (B "zh")) (ex_po "zh" "ni hao")
  /\ h_x ex_fmt (retarget (bind_tree ex_norm ex0 0 (B "default") ex_tree) 0 (B "default") (B "zh")) 0 [] (B "hi") [] = B "ni hao".
Proof.
  split; [apply R_init|]. split; [exact ex_distinct|]. split; [|vm_compute; reflexivity].
  exists [B "."; B "z.po"]. split; [split|split; [|split]].
  - eapply AP_dir; [left; reflexivity|constructor].
  - intros q Hq. inversion Hq as [|? ? t p I Hl]; subst. cbn in I. repeat (destruct I as [<-|I]); inversion Hl; subst; try contradiction.
    repeat match goal with H : In _ _ |- _ => destruct H as [<-|H] | H : In _ [] |- _ => destruct H end;
      match goal with H : locked _ _ |- _ => inversion H end.
  - exists [B "."], (B "z"). reflexivity.
  - eexists. split; [vm_compute; reflexivity|]. split; [vm_compute; discriminate|vm_compute; reflexivity].
  - intros q c' [Ha _] Nq _. inversion Ha as [|? ? t p c I Hl]; subst. cbn in I.
    repeat (destruct I as [<-|I]); try contradiction; inversion Hl as [|? ? t' p' c0 I' Hl']; subst.
    + left. reflexivity.
    + right. cbn [path_before]. right. split; [reflexivity|]. left. vm_compute. reflexivity.
    + right. cbn [path_before]. right. split; [reflexivity|]. left. vm_compute. reflexivity.
    + exfalso. apply (named_iff _ [B "."]) in Nq. vm_compute in Nq. discriminate.
Qed.
Print Assumptions C59_po.
Print Assumptions C59_mo.
Print Assumptions C59_none.
Print Assumptions C59_single.
Print Assumptions C59_missing.
(** a directory that cannot be listed hides what comes after it *)
Definition ex_locked : node := NDir (B ".") (Some [NFile (B "z.po") (Content (B "z")); NDir (B "m") None; NFile (B "a.po") (Content (B "a"))]).
Example C56_tree_case : readable (B ".po") (fun c => Some (catalog [{| e_cmts := []; e_ctxt := []; e_id := c; e_plural := false; e_id2 := []; e_str := c; e_strn := [] |}])) (walk_dir (Some ex_locked))
  = [catalog [{| e_cmts := []; e_ctxt := []; e_id := B "a"; e_plural := false; e_id2 := []; e_str := B "a"; e_strn := [] |}]]
  /\ visible ex_locked [B "."; B "a.po"] (B "a") /\ ~ visible ex_locked [B "."; B "z.po"] (B "z").
Proof.
  split; [vm_compute; reflexivity|]. split.
  - split; [eapply AP_dir; [right; right; left; reflexivity|constructor]|].
    intros q Hq. inversion Hq as [|? ? t p I Hl]; subst. cbn in I. repeat (destruct I as [<-|I]); try contradiction; inversion Hl; subst.
    cbn [path_before]. right. split; [reflexivity|]. left. vm_compute. reflexivity.
  - intros [_ H]. specialize (H [B "."; B "m"]). cbn [path_before] in H. destruct H as [H|[_ [H|[H _]]]];
      [eapply LK_dir; [right; left; reflexivity|constructor]| | |]; vm_compute in H; discriminate.
Qed.
Print Assumptions C56_exactly.
(** a catalog with a header, a plural entry and one without translation *)
Definition ex_es : list entry :=
  [ {| e_cmts := []; e_ctxt := []; e_id := []; e_plural := false; e_id2 := []; e_str := B "Language: zh" ++ [NL]; e_strn := [] |};
    {| e_cmts := [B "#: a.go:1"]; e_ctxt := B "m"; e_id := B "hi"; e_plural := false; e_id2 := []; e_str := B "ni hao"; e_strn := [] |};
    {| e_cmts := []; e_ctxt := []; e_id := B "none"; e_plural := false; e_id2 := []; e_str := []; e_strn := [] |} ].
Example C60_case : NoDup (map e_key ex_es) /\ (forall e, In e ex_es -> (po_ok e /\ mo_ok e) /\ (e_id e = [] -> e_ctxt e = []))
  /\ speaks ex_norm (B "zh") (catalog ex_es)
  /\ (exists out, saves_po (fun _ => true) (catalog ex_es) out /\ last_file (NFile (B "zh.po") (Content out)) (B ".po") (po_of ex_norm (B "zh")) [B "zh.po"] out)
  /\ exists out, saves_mo (catalog ex_es) out /\ (N.of_nat (length out) < 2 ^ 32)%N /\ nowhere (NFile (B "zh.mo") (Content out)) (B ".po") (po_of ex_norm (B "zh"))
       /\ last_file (NFile (B "zh.mo") (Content out)) (B ".mo") (mo_of ex_norm (B "zh")) [B "zh.mo"] out.
Proof.
  assert (Ab : forall x l, existsb (Ascii.eqb x) l = false -> ~ In x l).
  { intros x l E I. assert (existsb (Ascii.eqb x) l = true) by (apply existsb_exists; exists x; split; [exact I|apply Ascii.eqb_refl]). congruence. }
  split; [|split; [|split; [|split]]].
  - assert (Nb : forall a b : bytes, beq a b = false -> a <> b) by (intros a b E ->; rewrite beq_refl in E; discriminate).
    repeat constructor; cbn [map ex_es In]; intros I; repeat (destruct I as [I|I]; [apply Nb in I; [exact I|vm_compute; reflexivity]|]); exact I.
  - intros e [<-|[<-|[<-|[]]]]; (split; [split|cbn; auto; discriminate]).
    all: try (split; [intros c Hc; repeat (destruct Hc as [<-|Hc]; [split; [eexists; reflexivity|split; apply Ab; vm_compute; reflexivity]|]); destruct Hc|cbn; auto]).
    all: unfold mo_ok; cbn [e_ctxt e_id e_id2 e_plural e_str e_strn]; repeat split; try (apply Ab; vm_compute; reflexivity); try discriminate.
  - split; [vm_compute; discriminate|vm_compute; reflexivity].
  - destruct (PoCatalogFacts.saves_exist (fun _ => true) (catalog ex_es)) as [[out So] _]. exists out. split; [exact So|].
    split; [split; [constructor|intros q Hq; inversion Hq]|]. split; [exists [], (B "zh"); reflexivity|].
    intros q c' [Ha _] _ _. inversion Ha. left. reflexivity.
  - destruct (saves_mo_exist (catalog ex_es)) as [out So]. exists out. split; [exact So|]. split.
    { destruct So as (l & [P _] & ->). change (len (mo_bytes l) < 2 ^ 32)%N. rewrite mo_bytes_len. unfold body. rewrite len_app.
      assert (Q : forall g, len (write_strings (map g l)) = len (write_strings (map g (vals (f_entries (catalog ex_es)))))).
      { intros g. pose proof (Permutation_map g P) as P'. unfold len. f_equal. apply Permutation_length.
        unfold write_strings. rewrite <- !flat_map_concat_map. apply Permutation_flat_map, P'. }
      rewrite !Q, (Permutation_length P). reflexivity. }
    split.
    + intros q c' [Ha _] Nq _. inversion Ha; subst. apply (named_iff _ []) in Nq. vm_compute in Nq. discriminate.
    + split; [split; [constructor|intros q Hq; inversion Hq]|]. split; [exists [], (B "zh"); reflexivity|].
      intros q c' [Ha _] _ _. inversion Ha. left. reflexivity.
Qed.
Print Assumptions C60_po_partial.
Print Assumptions C60_po_exactly.
Print Assumptions C60_mo.
