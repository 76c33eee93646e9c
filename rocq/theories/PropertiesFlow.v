(** C76: from templates to translated pages. *)
From Coq Require Import List Lia ZArith Sorted.
From Verif Require Import GoStr GoStrFacts GoMap GoMapFacts PluralModel FileModel FileSpec FileFacts PoModel PoSpec MoModel MoSpec
  TransModel TransSpec FsModel FsSpec DeployFacts PropertiesFile PropertiesTrans PropertiesFs XtModel XtSpec XtKeyFacts XtRunFacts XtMergeFacts PropertiesXt FlowSpec.
Import ListNotations.
Local Open Scope Z_scope.

Section C76.
Context {A : Type}.
Variable fmt : bytes -> list A -> bytes.
Variable norm : bytes -> bytes.
Variable isp : N -> bool.
Variable globs : fs -> bytes -> option (list bytes).
Variable creatable : bytes -> bool.
Variable parses : list bytes -> bytes -> bytes -> bytes -> option (list tnode).
Variable letter number : N -> bool.
Notation runs := (runs isp globs creatable parses letter number).
(** the calls in the templates of a run with parameters [p] *)
Definition called (p : param) (w : fs) (e : entry) : Prop :=
  exists kws files o, spells (p_keyword p) kws /\ globs (opened p w) (p_input p) = Some files
    /\ found parses p (map k_name kws ++ function_names (p_function p)) (opened p w) kws files o e.
(** one message is not called with and without a plural *)
Definition consistent (p : param) (w : fs) (e : entry) : Prop :=
  forall e', called p w e' -> e_key e' = e_key e -> e_plural e' = e_plural e.
(** [e0] is the first call of the message of [e], in the order of the files,
    the templates and the places in them *)
Definition leads (p : param) (w : fs) (e0 e : entry) : Prop :=
  exists kws files o, spells (p_keyword p) kws /\ globs (opened p w) (p_input p) = Some files
    /\ found parses p (map k_name kws ++ function_names (p_function p)) (opened p w) kws files o e0 /\ e_key e0 = e_key e
    /\ forall o' e', found parses p (map k_name kws ++ function_names (p_function p)) (opened p w) kws files o' e' ->
         e_key e' = e_key e -> o' = o \/ before o o'.
(** [answers s h es e]: the handle answers the call [e] from the catalog [es] *)
Definition answered (s : @state A) (h : nat) (d : Z) (es : list entry) (e : entry) : Prop :=
  exists t, In t es /\ joined (e_ctxt t) (e_id t) = joined (e_ctxt e) (e_id e)
  /\ if e_plural e
     then forall exp n j args, rule (map (@FileSpec.OAdd A) es) d exp -> eval exp n = EvOk j -> 0 <= j < d ->
          exists x, nth_error (e_strn t) (Z.to_nat j) = Some x /\ x <> []
            /\ fst (h_xn64 fmt s h (e_ctxt e) (e_id e) (e_id2 e) n args) = XStr (fmt x args)
     else e_str t <> [] /\ forall args, h_x fmt s h (e_ctxt e) (e_id e) args = fmt (e_str t) args.

Lemma catalog_run es : catalog es = run fmt (map (@FileSpec.OAdd A) es).
Proof.
  unfold catalog, run. generalize new_file as f. induction es as [|e es IH]; intros f; [reflexivity|]. cbn [map fold_left step]. apply IH.
Qed.
Lemma catalog_def es t c i : NoDup (map e_key es) -> In t es -> e_key t = key c i -> last_def (map (@FileSpec.OAdd A) es) c i t.
Proof.
  intros N I K. apply List.in_split in I as (a & b & ->). exists (map FileSpec.OAdd a), (FileSpec.OAdd t), (map FileSpec.OAdd b).
  split; [rewrite map_app; reflexivity|]. split; [split; [reflexivity|exact K]|].
  intros o e Ho [-> D]. apply in_map_iff in Ho as (x & [= ->] & Hx). rewrite map_app in N. cbn [map] in N. apply NoDup_remove_2 in N. apply N.
  apply in_or_app. right. apply in_map_iff. exists e. split; [|exact Hx]. unfold e_key in *. rewrite K. exact D.
Qed.
Lemma place_irrefl o : ~ before o o.
Proof. induction o as [|i o IH]; intros H; inversion H; subst; [lia|contradiction]. Qed.
Lemma place_asym a b : before a b -> before b a -> False.
Proof. induction 1 as [i j a b L|i a b H IH]; intros G; inversion G; subst; (lia || (apply IH; assumption)). Qed.
Lemma sorted_mid (a : list (list nat)) x b y : StronglySorted before (a ++ x :: b) -> In y b -> before x y.
Proof.
  induction a as [|z a IH]; cbn [app]; intros H I; inversion H as [|? ? S F E]; subst.
  - rewrite Forall_forall in F. apply F, I.
  - apply IH; assumption.
Qed.
Lemma found_entry now p w w' out text f' e0 e : runs now p w ROk w' out -> produced p w' out text ->
  (forall files, globs (opened p w) (p_input p) = Some files -> clean_names files) -> read_pot text = PoOk f' ->
  leads p w e0 e ->
  exists m, mget (e_key e) (f_entries f') = Some m /\ e_plural m = e_plural e0.
Proof.
  intros R Pr Cn Rd (kws & files & o & Sk & G & F & K & Lo).
  destruct (C52_run_partial _ _ _ _ _ _ _ _ _ _ _ R) as (kws' & files' & text' & Sk' & G' & _ & Pr' & l & So & L & E).
  assert (kws' = kws) by (apply parse_keywords_iff in Sk, Sk'; congruence). subst kws'.
  assert (files' = files) by congruence. subst files'.
  assert (text' = text) by (destruct Pr as [[P1 P2]|[P1 P2]], Pr' as [[P3 P4]|[P3 P4]]; try contradiction; congruence). subst text'.
  destruct (E (Cn files G)) as (f2 & hp & Rd2 & _ & M). assert (f2 = f') by congruence. subst f2.
  assert (I : In (o, e0) l) by (apply L, F).
  assert (F0 : first_with (map snd l) (e_key e) e0).
  { apply List.in_split in I as (a & b & ->). exists (map snd a), (map snd b). rewrite map_app. split; [reflexivity|]. split; [exact K|].
    intros x Hx Kx. apply in_map_iff in Hx as ([ox x'] & X & Hx). cbn [snd] in X. subst x'.
    assert (B : before ox o).
    { apply List.in_split in Hx as (a1 & a2 & ->). rewrite <- app_assoc in So. cbn [app] in So. rewrite map_app in So. cbn [map fst] in So.
      eapply sorted_mid; [exact So|]. rewrite map_app. cbn [map fst]. apply in_or_app. right. left. reflexivity. }
    destruct (Lo ox x) as [->|B']; [apply L, in_or_app; left; exact Hx|exact Kx|exact (place_irrefl _ B)|exact (place_asym _ _ B B')]. }
  exists (template_of (with_cmts e0 (concat (map e_cmts (alike e0 (map snd l)))))). split; [|reflexivity].
  apply M. left. eexists. split; [|reflexivity]. exists e0. auto.
Qed.
(** every call has a first one *)
Lemma some_leads now p w w' out e : runs now p w ROk w' out -> called p w e -> exists e0, leads p w e0 e /\ called p w e0.
Proof.
  intros R (kws & files & o & Sk & G & F).
  destruct (C52_run_partial _ _ _ _ _ _ _ _ _ _ _ R) as (kws' & files' & text & Sk' & G' & _ & _ & l & So & L & _).
  assert (kws' = kws) by (apply parse_keywords_iff in Sk, Sk'; congruence). subst kws'.
  assert (files' = files) by congruence. subst files'.
  assert (I : In e (map snd l)) by (apply in_map_iff; exists (o, e); split; [reflexivity|apply L, F]).
  destruct (first_dec (map snd l) (e_key e)) as [(e0 & a & b & E & K & N)|F0]; [|exfalso; exact (F0 e I eq_refl)].
  apply map_eq_app in E as (la & lb & -> & <- & E). destruct lb as [|[o0 x] lb]; [discriminate|]. cbn [map snd] in E. injection E as -> <-.
  assert (I0 : In (o0, e0) (la ++ (o0, e0) :: lb)) by (apply in_or_app; right; left; reflexivity).
  exists e0. split; [|exists kws, files, o0; split; [exact Sk|split; [exact G|apply L, I0]]].
  exists kws, files, o0. split; [exact Sk|]. split; [exact G|]. split; [apply L, I0|]. split; [exact K|].
  intros o' e' F' K'. apply L in F'. apply in_app_or in F' as [F'|[F'|F']].
  - exfalso. apply (N e'); [apply in_map_iff; exists (o', e'); auto|exact K'].
  - left. congruence.
  - right. rewrite map_app in So. cbn [map fst] in So. eapply sorted_mid; [exact So|]. apply in_map_iff. exists (o', e'). auto.
Qed.
Lemma consistent_leads now p w w' out e : runs now p w ROk w' out -> called p w e -> consistent p w e ->
  exists e0, leads p w e0 e /\ e_plural e0 = e_plural e.
Proof.
  intros R C Co. destruct (some_leads _ _ _ _ _ _ R C) as (e0 & L & C0). exists e0. split; [exact L|]. apply Co; [exact C0|].
  destruct L as (? & ? & ? & _ & _ & _ & K & _). exact K.
Qed.
Lemma flow_answers now p w w' out text f' e0 e s h d es : runs now p w ROk w' out -> produced p w' out text ->
  (forall files, globs (opened p w) (p_input p) = Some files -> clean_names files) -> read_pot text = PoOk f' ->
  leads p w e0 e -> e_plural e0 = e_plural e -> e_key e <> key [] [] -> finished f' d es -> NoDup (map e_key es) ->
  deployed fmt s h es -> answered s h d es e.
Proof.
  intros R Pr Cn Rd Ld0 Co Ke Fi Nd [D1 D2].
  destruct (found_entry now p w w' out text f' e0 e R Pr Cn Rd Ld0) as (m & Em & Pm). rewrite Co in Pm.
  destruct (Fi _ _ Em Ke) as (t & It & Kt & Ht). rewrite Pm in Ht. exists t. split; [exact It|]. split; [exact Kt|].
  assert (Ld : last_def (map (@FileSpec.OAdd A) es) (e_ctxt e) (e_id e) t) by (apply catalog_def; assumption).
  destruct (e_plural e).
  - destruct Ht as [Hl Hn]. intros exp n j args Ru Ev Hj. destruct (nth_error (e_strn t) (Z.to_nat j)) as [x|] eqn:Ex.
    2:{ apply nth_error_None in Ex. lia. }
    exists x. split; [reflexivity|]. assert (Nx : x <> []) by (intros ->; apply Hn; exact (nth_error_In _ _ Ex)). split; [exact Nx|].
    rewrite D2, catalog_run.
    + exact (C09_selected A fmt _ _ _ _ _ args t d exp j x Ld Ru Ev Hj Ex Nx).
    + intros t' It' Kt'. assert (t' = t).
      { apply List.in_split in It as (a & b & ->). apply in_app_or in It' as [It'|[->|It']]; [|reflexivity|];
          rewrite map_app in Nd; cbn [map] in Nd; apply NoDup_remove_2 in Nd; exfalso; apply Nd; rewrite Kt; change (e_key e) with (key (e_ctxt e) (e_id e)); rewrite <- Kt';
          apply in_or_app; [left|right]; apply in_map; exact It'. }
      subst t'. right. intros Z. rewrite Z in Ex. destruct (Z.to_nat j); discriminate.
  - split; [exact Ht|]. intros args. rewrite D1, catalog_run. exact (C08_translation A fmt _ _ _ args t Ld Ht).
Qed.
(** Templates are extracted, the template file is translated completely, saved as
    .po, put into a directory and loaded: then every call in the templates gets
    its translation, if the first call of its message has a plural like it or
    none like it.  Missing for the full statement: the other calls of messages
    called with and without a plural, and the message with empty context and id. *)
Theorem C76_po_partial : forall now p w w' out text f' e0 e s h dom t l es d saved path,
  runs now p w ROk w' out -> produced p w' out text ->
  (forall files, globs (opened p w) (p_input p) = Some files -> clean_names files) -> read_pot text = PoOk f' ->
  leads p w e0 e -> e_plural e0 = e_plural e -> (e_ctxt e <> [] \/ e_id e <> []) ->
  finished f' d es -> NoDup (map e_key es) -> (forall e, In e es -> po_ok e /\ (e_id e = [] -> e_ctxt e = [])) ->
  speaks norm l (catalog es) -> saves_po isp (catalog es) saved ->
  reach fmt norm s -> (h < length (s_ts s))%nat -> distinct t -> last_file t (B ".po") (po_of norm l) path saved ->
  answered (retarget (bind_tree norm s h dom t) h dom l) h d es e.
Proof.
  intros now p w w' out text f' e0 e s h dom t l es d saved path R Pr Cn Rd Ca Co Ke Fi Nd Ok Sp Sv Re Hh Di La.
  assert (K : e_key e <> key [] []).
  { intros Z. destruct (proj1 (key_nil _ _) Z). destruct Ke; contradiction. }
  eapply flow_answers; try eassumption. eapply C60_po_partial; try eassumption.
  destruct (found_entry now p w w' out text f' e0 e R Pr Cn Rd Ca) as (m & Em & Pm). destruct (Fi _ _ Em K) as (x & Ix & _).
  intros ->. destruct Ix.
Qed.
(** the same with a .mo file *)
Theorem C76_mo_partial : forall now p w w' out text f' e0 e s h dom t l es d saved path,
  runs now p w ROk w' out -> produced p w' out text ->
  (forall files, globs (opened p w) (p_input p) = Some files -> clean_names files) -> read_pot text = PoOk f' ->
  leads p w e0 e -> e_plural e0 = e_plural e -> (e_ctxt e <> [] \/ e_id e <> []) ->
  finished f' d es -> NoDup (map e_key es) -> (forall e, In e es -> mo_ok e /\ (e_id e = [] -> e_ctxt e = [])) ->
  speaks norm l (catalog es) -> saves_mo (catalog es) saved -> (N.of_nat (length saved) < 2 ^ 32)%N ->
  reach fmt norm s -> (h < length (s_ts s))%nat -> distinct t -> nowhere t (B ".po") (po_of norm l) -> last_file t (B ".mo") (mo_of norm l) path saved ->
  answered (retarget (bind_tree norm s h dom t) h dom l) h d es e.
Proof.
  intros now p w w' out text f' e0 e s h dom t l es d saved path R Pr Cn Rd Ca Co Ke Fi Nd Ok Sp Sv Lo Re Hh Di No La.
  assert (K : e_key e <> key [] []).
  { intros Z. destruct (proj1 (key_nil _ _) Z). destruct Ke; contradiction. }
  eapply flow_answers; try eassumption.
  destruct (C60_mo fmt norm s h dom t l es saved path Re Hh Di Nd Ok Sp Sv Lo No La) as [A1 A2]. split; auto.
Qed.
(** The other calls get no translation of their own: a call without a plural is
    answered by its id, and one with a plural by the only text there is, whatever
    the number.  The translation has no texts the template file does not ask for. *)
Definition dropped (s : @state A) (h : nat) (es : list entry) (e : entry) : Prop :=
  if e_plural e
  then exists t, In t es /\ joined (e_ctxt t) (e_id t) = joined (e_ctxt e) (e_id e)
       /\ forall n args, fst (h_xn64 fmt s h (e_ctxt e) (e_id e) (e_id2 e) n args) = XStr (fmt (e_str t) args)
  else forall args, h_x fmt s h (e_ctxt e) (e_id e) args = fmt (e_id e) args.
Lemma flow_drops now p w w' out text f' e0 e s h d es : runs now p w ROk w' out -> produced p w' out text ->
  (forall files, globs (opened p w) (p_input p) = Some files -> clean_names files) -> read_pot text = PoOk f' ->
  leads p w e0 e -> e_plural e0 <> e_plural e -> e_key e <> key [] [] -> finished f' d es -> asked f' es -> NoDup (map e_key es) ->
  deployed fmt s h es -> dropped s h es e.
Proof.
  intros R Pr Cn Rd Ld0 Co Ke Fi As Nd [D1 D2].
  destruct (found_entry now p w w' out text f' e0 e R Pr Cn Rd Ld0) as (m & Em & Pm).
  destruct (Fi _ _ Em Ke) as (t & It & Kt & Ht). pose proof (As _ _ Em t It Kt) as At.
  assert (Ld : last_def (map (@FileSpec.OAdd A) es) (e_ctxt e) (e_id e) t) by (apply catalog_def; assumption).
  assert (U : forall t', In t' es -> e_key t' = key (e_ctxt e) (e_id e) -> t' = t).
  { intros t' It' Kt'. apply List.in_split in It as (a & b & ->). apply in_app_or in It' as [It'|[->|It']]; [|reflexivity|];
      rewrite map_app in Nd; cbn [map] in Nd; apply NoDup_remove_2 in Nd; exfalso; apply Nd; rewrite Kt; change (e_key e) with (key (e_ctxt e) (e_id e)); rewrite <- Kt';
      apply in_or_app; [left|right]; apply in_map; exact It'. }
  unfold dropped. destruct (e_plural e) eqn:Pe, (e_plural e0) eqn:Pe0; try congruence; rewrite Pm in *.
  - destruct At as [A1 A2]. exists t. split; [exact It|]. split; [exact Kt|]. intros n args. rewrite D2, catalog_run.
    + rewrite (C09_singular A fmt _ _ _ (e_id2 e) n args t Ld A1 A2). destruct (e_str t); [congruence|reflexivity].
    + intros t' It' Kt'. rewrite (U t' It' Kt'). left. exact Ht.
  - intros args. rewrite D1, catalog_run. apply C08_source. intros t' (os1 & o & os2 & E & [-> K] & _).
    rewrite (U t'); [exact At| |exact K].
    assert (I : In (FileSpec.OAdd t') (map (@FileSpec.OAdd A) es)) by (rewrite E; apply in_or_app; right; left; reflexivity).
    apply in_map_iff in I as (x & [= ->] & I). exact I.
Qed.
Theorem C76_po_dropped : forall now p w w' out text f' e0 e s h dom t l es d saved path,
  runs now p w ROk w' out -> produced p w' out text ->
  (forall files, globs (opened p w) (p_input p) = Some files -> clean_names files) -> read_pot text = PoOk f' ->
  leads p w e0 e -> e_plural e0 <> e_plural e -> (e_ctxt e <> [] \/ e_id e <> []) ->
  finished f' d es -> asked f' es -> NoDup (map e_key es) -> (forall e, In e es -> po_ok e /\ (e_id e = [] -> e_ctxt e = [])) ->
  speaks norm l (catalog es) -> saves_po isp (catalog es) saved ->
  reach fmt norm s -> (h < length (s_ts s))%nat -> distinct t -> last_file t (B ".po") (po_of norm l) path saved ->
  dropped (retarget (bind_tree norm s h dom t) h dom l) h es e.
Proof.
  intros now p w w' out text f' e0 e s h dom t l es d saved path R Pr Cn Rd Ca Co Ke Fi As Nd Ok Sp Sv Re Hh Di La.
  assert (K : e_key e <> key [] []).
  { intros Z. destruct (proj1 (key_nil _ _) Z). destruct Ke; contradiction. }
  eapply flow_drops; try eassumption. eapply C60_po_partial; try eassumption.
  destruct (found_entry now p w w' out text f' e0 e R Pr Cn Rd Ca) as (m & Em & Pm). destruct (Fi _ _ Em K) as (x & Ix & _).
  intros ->. destruct Ix.
Qed.
Theorem C76_mo_dropped : forall now p w w' out text f' e0 e s h dom t l es d saved path,
  runs now p w ROk w' out -> produced p w' out text ->
  (forall files, globs (opened p w) (p_input p) = Some files -> clean_names files) -> read_pot text = PoOk f' ->
  leads p w e0 e -> e_plural e0 <> e_plural e -> (e_ctxt e <> [] \/ e_id e <> []) ->
  finished f' d es -> asked f' es -> NoDup (map e_key es) -> (forall e, In e es -> mo_ok e /\ (e_id e = [] -> e_ctxt e = [])) ->
  speaks norm l (catalog es) -> saves_mo (catalog es) saved -> (N.of_nat (length saved) < 2 ^ 32)%N ->
  reach fmt norm s -> (h < length (s_ts s))%nat -> distinct t -> nowhere t (B ".po") (po_of norm l) -> last_file t (B ".mo") (mo_of norm l) path saved ->
  dropped (retarget (bind_tree norm s h dom t) h dom l) h es e.
Proof.
  intros now p w w' out text f' e0 e s h dom t l es d saved path R Pr Cn Rd Ca Co Ke Fi As Nd Ok Sp Sv Lo Re Hh Di No La.
  assert (K : e_key e <> key [] []).
  { intros Z. destruct (proj1 (key_nil _ _) Z). destruct Ke; contradiction. }
  eapply flow_drops; try eassumption.
  destruct (C60_mo fmt norm s h dom t l es saved path Re Hh Di Nd Ok Sp Sv Lo No La) as [A1 A2]. split; auto.
Qed.
(** every call has a first one of its message, so the theorems above speak of all *)
Theorem C76_first : forall now p w w' out e, runs now p w ROk w' out -> called p w e -> exists e0, leads p w e0 e /\ called p w e0.
Proof. exact some_leads. Qed.
End C76.
Print Assumptions C76_po_dropped. Print Assumptions C76_mo_dropped. Print Assumptions C76_first.
Print Assumptions C76_po_partial. Print Assumptions C76_mo_partial.

(** ** A sample: two calls in one template, extracted, translated to zh and loaded from zh.po *)
Definition fl_param : param :=
  {| p_input := B "a"; p_left := B "{{"; p_right := B "}}"; p_keyword := B "T;N:1,2"; p_function := []; p_output := B "out" |}.
Definition fl_kws : list keyword := [kw (B "T") 0 1 0; kw (B "N") 0 1 2].
Definition fl_file (t : tnode) : file :=
  let c := resolve_node (B "a") t (new_ctx fl_kws) in
  fold_left add_entry (vals (c_entries c)) (add_entry new_file (header_entry [] fl_param (c_has_plural c))).
Definition fl_w' (out : bytes) : fs := fs_set (fs_set (a_fs "{{T}}") (B "out") []) (B "out") out.
Notation fl_runs t := (runs no_chars a_globs all_ok (a_parses t) no_chars no_chars [] fl_param (a_fs "{{T}}")).
Lemma fl_run t out : saves_pot no_chars (fl_file t) out -> fl_runs t ROk (fl_w' out) [].
Proof.
  intros S.
  apply (R_done no_chars a_globs all_ok (a_parses t) no_chars no_chars [] fl_param (a_fs "{{T}}") fl_kws
    (fs_set (a_fs "{{T}}") (B "out") []) [B "a"] (resolve_node (B "a") t (new_ctx fl_kws)) (fl_file t) out).
  - vm_compute. reflexivity.
  - left. auto.
  - reflexivity.
  - reflexivity.
  - eexists. split; [apply Permutation.Permutation_refl|reflexivity].
  - exact S.
Qed.
Definition fl_entry (id : string) (plural : string) (line : string) : entry :=
  {| e_cmts := [B "#: a:" ++ B line]; e_ctxt := []; e_id := B id; e_plural := negb (is_empty (B plural)); e_id2 := B plural; e_str := []; e_strn := [] |}.
Definition fl_T (line : Z) (id : string) : tnode := TAction line [[AIdent (B "T"); AStr (B id)]].
Definition fl_N (line : Z) (id id2 : string) : tnode := TAction line [[AIdent (B "N"); AStr (B id); AStr (B id2)]].
Definition fl_header : entry :=
  {| e_cmts := []; e_ctxt := []; e_id := []; e_plural := false; e_id2 := [];
     e_str := B "Language: zh" ++ NL :: B "Plural-Forms: nplurals=1; plural=0;" ++ [NL]; e_strn := [] |}.
Definition fl_one (id text : string) : entry :=
  {| e_cmts := []; e_ctxt := []; e_id := B id; e_plural := false; e_id2 := []; e_str := B text; e_strn := [] |}.
Definition fl_many (id id2 text : string) : entry :=
  {| e_cmts := []; e_ctxt := []; e_id := B id; e_plural := true; e_id2 := B id2; e_str := []; e_strn := [B text] |}.
Definition fl_tree (saved : bytes) : node := NFile (B "zh.po") (Content saved).
Lemma fl_called t e : called a_globs (a_parses t) fl_param (a_fs "{{T}}") e <-> exists o k, message (B "a") fl_kws t o k e /\ gapless k.
Proof.
  assert (Q : parse_keywords (p_keyword fl_param) = Some fl_kws) by (vm_compute; reflexivity).
  assert (Tr : trees (a_parses t) fl_param (map k_name fl_kws ++ function_names (p_function fl_param)) (opened fl_param (a_fs "{{T}}")) (B "a") = [t]) by reflexivity.
  split.
  - intros (kws & files & o & Sk & G & (i & n & j & t' & o' & k & -> & Ei & Ej & M & Gk)).
    apply parse_keywords_iff in Sk. assert (kws = fl_kws) by congruence. subst kws. injection G as <-.
    destruct i as [|i]; [|destruct i; discriminate]. injection Ei as <-. match type of Ej with nth_error ?x _ = _ => change x with [t] in Ej end. destruct j as [|j]; [|destruct j; discriminate]. injection Ej as <-.
    exists o', k. auto.
  - intros (o & k & M & G). exists fl_kws, [B "a"], (0%nat :: 0%nat :: o). split; [apply parse_keywords_iff, Q|].
    split; [reflexivity|]. exists 0%nat, (B "a"), 0%nat, t, o, k. split; [reflexivity|]. split; [reflexivity|]. split; [rewrite Tr; reflexivity|]. auto.
Qed.
Lemma fl_consistent t e m : c_rejected (resolve_node (B "a") t (new_ctx fl_kws)) = [] ->
  mget (e_key e) (c_entries (resolve_node (B "a") t (new_ctx fl_kws))) = Some m -> e_plural m = e_plural e ->
  consistent a_globs (a_parses t) fl_param (a_fs "{{T}}") e.
Proof.
  intros Rj Em Pm e' Ca K. apply fl_called in Ca as (o & k & M & G). pose proof (C49_extracted_partial _ _ _ _ _ _ M G) as [X|(m' & X & Y & _)].
  - rewrite Rj in X. destruct X.
  - rewrite K, Em in X. injection X as <-. congruence.
Qed.
Definition fl_t : tnode := TList [fl_T 1 "hello"; fl_N 2 "%d file" "%d files"].
Definition fl_es : list entry := [fl_header; fl_one "hello" "ni hao"; fl_many "%d file" "%d files" "%d wenjian"].
Definition fl_e1 : entry := {| e_cmts := [B "#: a:1"]; e_ctxt := []; e_id := B "hello"; e_plural := false; e_id2 := []; e_str := []; e_strn := [] |}.
Definition fl_e2 : entry := {| e_cmts := [B "#: a:2"; B "#, go-format"]; e_ctxt := []; e_id := B "%d file"; e_plural := true; e_id2 := B "%d files"; e_str := []; e_strn := [] |}.
Lemma fl_e1_called : called a_globs (a_parses fl_t) fl_param (a_fs "{{T}}") fl_e1.
Proof.
  apply fl_called. exists [0;0;0;0;0]%nat, (kw (B "T") 0 1 0). split.
  - exists [0;0]%nat, [0;0]%nat, 0%nat, 1. do 2 eexists. exists 0%nat. split; [reflexivity|]. split; [eapply (IN_list _ 0%nat); [reflexivity|apply IN_action]|].
    split; [apply IP_here; [apply A_plain; [discriminate|reflexivity]|cbn; lia]|]. split; [reflexivity|].
    split; [eexists; split; [reflexivity|apply N_ident]|]. constructor; try reflexivity.
    + split; [cbn; lia|]. eexists; split; [reflexivity|apply L_str].
    + right. cbn. split; [intuition discriminate|]. split; [auto|reflexivity].
    + split; reflexivity.
  - apply gapless_small; left; auto.
Qed.
Lemma fl_e2_called : called a_globs (a_parses fl_t) fl_param (a_fs "{{T}}") fl_e2.
Proof.
  apply fl_called. exists [1;0;0;0;1]%nat, (kw (B "N") 0 1 2). split.
  - exists [1;0]%nat, [0;0]%nat, 1%nat, 2. do 2 eexists. exists 0%nat. split; [reflexivity|]. split; [eapply (IN_list _ 1%nat); [reflexivity|apply IN_action]|].
    split; [apply IP_here; [apply A_plain; [discriminate|reflexivity]|cbn; lia]|]. split; [reflexivity|].
    split; [eexists; split; [reflexivity|apply N_ident]|]. constructor; try reflexivity.
    + split; [cbn; lia|]. eexists; split; [reflexivity|apply L_str].
    + split; [cbn; lia|]. eexists; split; [reflexivity|apply L_str].
    + left. split; [left; cbn; auto|reflexivity].
    + split; reflexivity.
  - apply gapless_small. cbn. tauto.
Qed.
Lemma fl_absent c l : existsb (Ascii.eqb c) l = false -> ~ In c l.
Proof. intros E I. assert (existsb (Ascii.eqb c) l = true) by (apply existsb_exists; exists c; split; [exact I|apply Ascii.eqb_refl]). congruence. Qed.
Lemma fl_differ (a b : bytes) : beq a b = false -> a <> b.
Proof. intros E ->. rewrite beq_refl in E. discriminate. Qed.
Ltac fl_nodup := repeat constructor; cbn [map In]; let I := fresh in intros I; repeat (destruct I as [I|I]; [apply fl_differ in I; [exact I|vm_compute; reflexivity]|]); exact I.
Ltac fl_po_ok := split; [intros ? []|split; [cbn; auto|cbn; auto]].
(** all hypotheses of C76_po_partial, for both calls *)
Example C76_case : exists text f' saved,
  fl_runs fl_t ROk (fl_w' text) [] /\ produced fl_param (fl_w' text) [] text
  /\ (forall files, a_globs (opened fl_param (a_fs "{{T}}")) (p_input fl_param) = Some files -> clean_names files)
  /\ read_pot text = PoOk f'
  /\ (forall e, In e [fl_e1; fl_e2] -> called a_globs (a_parses fl_t) fl_param (a_fs "{{T}}") e
        /\ (exists e0, leads a_globs (a_parses fl_t) fl_param (a_fs "{{T}}") e0 e /\ e_plural e0 = e_plural e) /\ (e_ctxt e <> [] \/ e_id e <> []))
  /\ finished f' 1 fl_es /\ NoDup (map e_key fl_es) /\ (forall e, In e fl_es -> po_ok e /\ (e_id e = [] -> e_ctxt e = []))
  /\ speaks ex_norm (B "zh") (catalog fl_es) /\ saves_po no_chars (catalog fl_es) saved
  /\ reach ex_fmt ex_norm ex0 /\ (0 < length (s_ts ex0))%nat /\ distinct (fl_tree saved)
  /\ last_file (fl_tree saved) (B ".po") (po_of ex_norm (B "zh")) [B "zh.po"] saved
  /\ rule (map (@FileSpec.OAdd unit) fl_es) 1 (B "0") /\ eval (B "0") 5 = EvOk 0.
Proof.
  assert (Ff : filed (fl_file fl_t)) by (apply fold_add_filed, PoCatalogFacts.built_filed; eexists [_]; reflexivity).
  assert (Ne : f_entries (fl_file fl_t) <> []) by (vm_compute; discriminate).
  assert (Ok : forall e, In e (vals (f_entries (fl_file fl_t))) -> pot_ok e).
  { intros e He. vm_compute in He. repeat (destruct He as [<-|He]; [split; [intros c Hc; cbn [e_cmts] in Hc;
      repeat (destruct Hc as [<-|Hc]; [split; [eexists; reflexivity|split; apply fl_absent; vm_compute; reflexivity]|]); destruct Hc|cbn; auto]|]). destruct He. }
  destruct (proj2 (PoCatalogFacts.saves_exist no_chars (fl_file fl_t))) as (text & St).
  destruct (PoCatalogFacts.pot_round_trip no_chars (fl_file fl_t) text Ff Ok Ne St) as (f' & Rd & _ & M).
  destruct (proj1 (PoCatalogFacts.saves_exist no_chars (catalog fl_es))) as (saved & Sv).
  exists text, f', saved. split; [apply fl_run, St|]. split; [left; split; [split; apply fl_differ; vm_compute; reflexivity|reflexivity]|].
  split; [intros files [= <-] n [<-|[]]; split; apply fl_absent; vm_compute; reflexivity|]. split; [exact Rd|]. split.
  { intros e [<-|[<-|[]]]; (split; [first [exact fl_e1_called|exact fl_e2_called]|]); (split; [|right; discriminate]);
      (eapply consistent_leads; [exact (fl_run fl_t text St)|first [exact fl_e1_called|exact fl_e2_called]|]);
      eapply fl_consistent; vm_compute; reflexivity. }
  split.
  { intros k m Hm Hk. apply M in Hm as (e & He & ->).
    assert (I : In e (vals (f_entries (fl_file fl_t))) /\ k = e_key e).
    { split; [|]; apply mget_in in He; [apply in_map_iff; exists (k, e); auto|apply Ff, He]. }
    destruct I as [I ->]. vm_compute in I. destruct I as [<-|[<-|[<-|[]]]].
    - exfalso. apply Hk. reflexivity.
    - eexists. split; [right; left; reflexivity|]. split; [reflexivity|]. discriminate.
    - eexists. split; [right; right; left; reflexivity|]. split; [reflexivity|]. split; [reflexivity|]. intros [X|[]]. discriminate. }
  split; [fl_nodup|]. split; [intros e [<-|[<-|[<-|[]]]]; (split; [fl_po_ok|cbn; auto])|].
  split; [split; [vm_compute; discriminate|vm_compute; reflexivity]|]. split; [exact Sv|]. split; [apply R_init|]. split; [cbn; lia|].
  split; [constructor|]. split.
  { split; [split; [constructor|intros q Hq; inversion Hq]|]. split; [exists [], (B "zh"); reflexivity|].
    intros q c' [Ha _] _ _. inversion Ha. left. reflexivity. }
  split; [|vm_compute; reflexivity].
  exists (e_str fl_header), (B "nplurals=1; plural=0;"). split; [|split; [vm_compute; reflexivity|]].
  - apply (H_then _ [] (FileSpec.OAdd fl_header) (map FileSpec.OAdd (tl fl_es))); [reflexivity| |reflexivity|].
    + intros os1 o os2 E. destruct os1; discriminate.
    + left. exists fl_header. split; [|reflexivity]. exists [], (FileSpec.OAdd fl_header), []. split; [reflexivity|]. split; [split; reflexivity|]. intros o' e' [].
  - exists [], [], [], [], [SP], [], [], []. split; [vm_compute; reflexivity|]. split; [lia|]. split.
    { intros b Hb c Hc. repeat (destruct Hb as [<-|Hb]; [try destruct Hc as [<-|[]]; try destruct Hc; vm_compute; tauto|]). destruct Hb. }
    split; [apply fl_absent; vm_compute; reflexivity|]. split; [|split; [discriminate|left; reflexivity]].
    intros c t [= <- <-] Hb. vm_compute in Hb. intuition discriminate.
Qed.
(** A message called with and without a plural: the second call is dropped with a
    warning, and stays untranslated although the catalog is complete. *)
Definition fl_u : tnode := TList [fl_N 1 "a" "as"; fl_T 2 "a"].
Definition fl_us : list entry := [fl_header; fl_many "a" "as" "x"].
Definition fl_u2 : entry := {| e_cmts := [B "#: a:2"]; e_ctxt := []; e_id := B "a"; e_plural := false; e_id2 := []; e_str := []; e_strn := [] |}.
Theorem C76_conflict_refuted : exists text f' saved,
  fl_runs fl_u ROk (fl_w' text) [] /\ produced fl_param (fl_w' text) [] text /\ read_pot text = PoOk f'
  /\ called a_globs (a_parses fl_u) fl_param (a_fs "{{T}}") fl_u2
  /\ (exists e0, leads a_globs (a_parses fl_u) fl_param (a_fs "{{T}}") e0 fl_u2 /\ e_plural e0 <> e_plural fl_u2)
  /\ finished f' 1 fl_us /\ asked f' fl_us
  /\ saves_po no_chars (catalog fl_us) saved
  /\ let s := retarget (bind_tree ex_norm ex0 0 (B "default") (fl_tree saved)) 0 (B "default") (B "zh") in
     h_x ex_fmt s 0 (e_ctxt fl_u2) (e_id fl_u2) [] = e_id fl_u2
     /\ fst (h_xn64 ex_fmt s 0 [] (B "a") (B "as") 5 []) = XStr (B "x").
Proof.
  assert (Ff : filed (fl_file fl_u)) by (apply fold_add_filed, PoCatalogFacts.built_filed; eexists [_]; reflexivity).
  assert (Ne : f_entries (fl_file fl_u) <> []) by (vm_compute; discriminate).
  assert (Ok : forall e, In e (vals (f_entries (fl_file fl_u))) -> pot_ok e).
  { intros e He. vm_compute in He. repeat (destruct He as [<-|He]; [split; [intros c Hc; cbn [e_cmts] in Hc;
      repeat (destruct Hc as [<-|Hc]; [split; [eexists; reflexivity|split; apply fl_absent; vm_compute; reflexivity]|]); destruct Hc|cbn; auto]|]). destruct He. }
  destruct (proj2 (PoCatalogFacts.saves_exist no_chars (fl_file fl_u))) as (text & St).
  destruct (PoCatalogFacts.pot_round_trip no_chars (fl_file fl_u) text Ff Ok Ne St) as (f' & Rd & _ & M).
  destruct (proj1 (PoCatalogFacts.saves_exist no_chars (catalog fl_us))) as (saved & Sv).
  exists text, f', saved. split; [apply fl_run, St|]. split; [left; split; [split; apply fl_differ; vm_compute; reflexivity|reflexivity]|].
  split; [exact Rd|].
  assert (Ca : called a_globs (a_parses fl_u) fl_param (a_fs "{{T}}") fl_u2).
  { apply fl_called. exists [1;0;0;0;0]%nat, (kw (B "T") 0 1 0). split.
    - exists [1;0]%nat, [0;0]%nat, 0%nat, 2. do 2 eexists. exists 0%nat. split; [reflexivity|]. split; [eapply (IN_list _ 1%nat); [reflexivity|apply IN_action]|].
      split; [apply IP_here; [apply A_plain; [discriminate|reflexivity]|cbn; lia]|]. split; [reflexivity|].
      split; [eexists; split; [reflexivity|apply N_ident]|]. constructor; try reflexivity.
      + split; [cbn; lia|]. eexists; split; [reflexivity|apply L_str].
      + right. cbn. split; [intuition discriminate|]. split; [auto|reflexivity].
      + split; reflexivity.
    - apply gapless_small; left; auto. }
  split; [exact Ca|].
  assert (En : forall k m, mget k (f_entries f') = Some m -> k = key [] [] \/ k = e_key fl_u2 /\ e_plural m = true).
  { intros k m Hm. apply M in Hm as (e & He & ->).
    assert (I : In e (vals (f_entries (fl_file fl_u))) /\ k = e_key e).
    { split; [|]; apply mget_in in He; [apply in_map_iff; exists (k, e); auto|apply Ff, He]. }
    destruct I as [I ->]. vm_compute in I. destruct I as [<-|[<-|[]]]; [left|right; split]; reflexivity. }
  split.
  { destruct (some_leads _ _ _ _ _ _ _ _ _ _ _ _ (fl_run fl_u text St) Ca) as (e0 & L & _). exists e0. split; [exact L|].
    destruct (found_entry no_chars a_globs all_ok (a_parses fl_u) no_chars no_chars [] fl_param _ _ _ text f' e0 fl_u2 (fl_run fl_u text St)) as (m & Em & Pm).
    - left. split; [split; apply fl_differ; vm_compute; reflexivity|reflexivity].
    - intros files [= <-] n [<-|[]]; split; apply fl_absent; vm_compute; reflexivity.
    - exact Rd.
    - exact L.
    - rewrite <- Pm. destruct (En _ _ Em) as [X|[_ ->]]; [|discriminate]. apply fl_differ in X; [destruct X|vm_compute; reflexivity]. }
  split.
  { intros k m Hm Hk. destruct (En _ _ Hm) as [X|[-> ->]]; [contradiction|].
    eexists. split; [right; left; reflexivity|]. split; [reflexivity|]. split; [reflexivity|]. intros [X|[]]. discriminate. }
  split.
  { intros k m Hm e [<-|[<-|[]]] K; destruct (En _ _ Hm) as [Y|[Y Z]].
    - apply M in Hm as (e & He & ->).
      assert (I : In e (vals (f_entries (fl_file fl_u))) /\ k = e_key e).
      { split; [|]; apply mget_in in He; [apply in_map_iff; exists (k, e); auto|apply Ff, He]. }
      destruct I as [I Ke]. vm_compute in I. destruct I as [<-|[<-|[]]]; [split; reflexivity|].
      rewrite Ke in Y. apply fl_differ in Y; [destruct Y|vm_compute; reflexivity].
    - rewrite Y in K. apply fl_differ in K; [destruct K|vm_compute; reflexivity].
    - rewrite Y in K. apply fl_differ in K; [destruct K|vm_compute; reflexivity].
    - rewrite Z. reflexivity. }
  split; [exact Sv|]. intros s.
  assert (D : deployed ex_fmt s 0 fl_us).
  { eapply (C60_po_partial ex_fmt ex_norm ex0 0 (B "default") (fl_tree saved) (B "zh") no_chars fl_us saved [B "zh.po"]).
    - apply R_init.
    - cbn; lia.
    - constructor.
    - discriminate.
    - fl_nodup.
    - intros e [<-|[<-|[]]]; (split; [fl_po_ok|cbn; auto]).
    - split; [vm_compute; discriminate|vm_compute; reflexivity].
    - exact Sv.
    - split; [split; [constructor|intros q Hq; inversion Hq]|]. split; [exists [], (B "zh"); reflexivity|].
      intros q c' [Ha _] _ _. inversion Ha. left. reflexivity. }
  destruct D as [D1 D2]. split; [rewrite D1; vm_compute; reflexivity|]. rewrite D2; [vm_compute; reflexivity|].
  intros e [<-|[<-|[]]] _; [left|right]; discriminate.
Qed.
Print Assumptions C76_conflict_refuted.
