(** Properties of the language in which the command xtemplate speaks, and of what it
    says about its command line. *)
From Coq Require Import Lia List ZArith NArith Bool Ascii.
From Verif Require Import GoStr GoStrFacts GoQuote GoMap GoMapFacts FileModel PoModel MoModel MoFacts TransModel TransSpec TransFacts TransViewFacts TransLoadFacts
  PoSpec MoSpec FsModel FsSpec FsFacts GlobalModel PropertiesTrans PropertiesFs XtModel XtSpec WriteModel MainModel MainSpec MainFacts PropertiesMain XtErrModel XtErrSpec.
From Verif Require Import GoFmt XtErrFacts XtErrKeyFacts XtUsageModel XtUsageSpec XtUsageFacts XtLangModel XtLangSpec XtLangFacts PropertiesXtErr.
Import ListNotations.

Section Language.
Variable norm : bytes -> bytes.
Variable print : spec -> GoFmt.arg (list bytes) -> bytes.
Variable as_int : GoFmt.arg (list bytes) -> option Z.
Variable extra : list (GoFmt.arg (list bytes)) -> bytes.
Notation fmt_f := (fmt_f print as_int extra).
Notation started := (started norm).
Notation own lp tree d0 d := (own_text print as_int extra (started lp tree d0 d)).

(** ** C85: the language of the messages *)
(** Without LANG_PATH (or with a blank one) the program speaks Chinese to users
    whose system locale is zh_CN, and English to all others; what the embedded
    language pack does not translate stays English. *)
Theorem C85_embedded : forall lp tree d0 d, no_path lp -> let s := started lp tree d0 d in
  (d = norm (B "zh_CN") -> forall m args, m <> [] -> exists t, said_by zh m t /\ g_T fmt_f s m args = fmt_f t args)
  /\ (d <> norm (B "zh_CN") -> forall m args, g_T fmt_f s m args = fmt_f m args).
Proof.
  intros lp tree d0 d H. destruct (shipped norm print as_int extra lp tree d0 d H) as [S1 S2]. split; [|exact S2].
  intros E m args Nm. exists (zh_text m). split; [apply zh_said|]. exact (S1 E m args Nm).
Qed.
(** With LANG_PATH only the catalogs under that path count, the last .po file (else
    the last .mo file) of the language of the system locale; if there is none, or the path does
    not exist, the messages are English: the embedded language pack is no fallback. *)
Theorem C85_path : forall p tree d0 d, trim_space p <> [] -> let s := started (Some p) tree d0 d in let h := s_global s in
  (tree p = None -> source_text fmt_f s h)
  /\ forall t, tree p = Some t -> distinct t ->
     (forall c f, latest t (B ".po") (po_of norm d) c -> as_po c = Some f -> answers_from fmt_f s h f)
     /\ (forall c f, nowhere t (B ".po") (po_of norm d) -> latest t (B ".mo") (mo_of norm d) c -> as_mo c = Some f -> answers_from fmt_f s h f)
     /\ (nowhere t (B ".po") (po_of norm d) -> nowhere t (B ".mo") (mo_of norm d) -> source_text fmt_f s h).
Proof.
  intros p tree d0 d H. cbv zeta. rewrite started_global, (started_path norm p tree d0 d H). split.
  - intros ->. apply missing_source. intros [(x & [] & _)|(x & [] & _)].
  - intros t -> D. split; [|split].
    + intros c f L E. exact (C59_po fmt_f norm _ 0 default_domain t d c f (R_init fmt_f norm d0) (le_n 1) D L E).
    + intros c f N L E. exact (C59_mo fmt_f norm _ 0 default_domain t d c f (R_init fmt_f norm d0) (le_n 1) D N L E).
    + intros N1 N2. exact (none_source norm print as_int extra t d0 d D N1 N2).
Qed.
(** The languages of the shipped program are such that C82 to C84 and C87 hold without
    a condition about translations. *)
Lemma zh_explains : explains_flags zh_text.
Proof.
  split; [eapply keeps_by; vm_compute; reflexivity|]. intros m I. cbn [explanations In] in I.
  assert (Q : forall s, existsb (Ascii.eqb NL) s || existsb (Ascii.eqb "`") s = false -> one_line s).
  { intros s E. apply orb_false_iff in E as [E1 E2]. split; intros X; rewrite <- not_true_iff_false in E1, E2; [apply E1|apply E2]; apply existsb_exists;
      eexists; (split; [exact X|apply Ascii.eqb_refl]). }
  repeat (destruct I as [<-|I]; [apply Q; vm_compute; reflexivity|]). destruct I.
Qed.
Lemma id_explains : explains_flags (fun m => m).
Proof.
  split; [intros ts R; exists ts; auto|]. intros m I. cbn [explanations In] in I.
  assert (Q : forall s, existsb (Ascii.eqb NL) s || existsb (Ascii.eqb "`") s = false -> one_line s).
  { intros s E. apply orb_false_iff in E as [E1 E2]. split; intros X; rewrite <- not_true_iff_false in E1, E2; [apply E1|apply E2]; apply existsb_exists;
      eexists; (split; [exact X|apply Ascii.eqb_refl]). }
  repeat (destruct I as [<-|I]; [apply Q; vm_compute; reflexivity|]). destruct I.
Qed.
Theorem C85_shipped : forall lp tree d0 d, no_path lp -> sound (own lp tree d0 d) /\ explains_flags (own lp tree d0 d).
Proof.
  intros lp tree d0 d H. split; [apply shipped_sound, H|].
  destruct (shipped_own norm print as_int extra lp tree d0 d H) as (tr & T & E).
  assert (X : explains_flags tr) by (destruct T as [-> | ->]; [exact zh_explains|exact id_explains]).
  destruct X as [K X]. split.
  - eapply keeps_ext; [symmetry; apply E; discriminate|exact K].
  - intros m I. rewrite E; [apply X, I|]. cbn [explanations In] in I. each I discriminate.
Qed.

(** ** C86: the language pack is complete *)
(** Full statement: every message of the program has a translation that asks for the same
    values.  False: one message is not translated and two translations do not show the
    value they are about. *)
Definition untranslated : list bytes := [B "failed to read file %v"].
Definition curtailed : list bytes := [B "context index is not a number: %v"; B "context index must end with 'c': %v"].
(** the catalog in the language pack translates [m] by [t] *)
Definition ships (m t : bytes) : Prop :=
  exists f e, read_po zh_CN_po = PoOk f /\ In e (vals (f_entries f)) /\ e_id e <> [] /\ e_ctxt e = [] /\ e_id e = m /\ e_str e = t.
Lemma as_po_read c f : as_po c = Some f -> read_po c = PoOk f.
Proof. unfold as_po. destruct (read_po c) as [g| | |]; intros [=]. congruence. Qed.
Lemma read_as_po c f g : read_po c = PoOk f -> as_po c = Some g -> f = g.
Proof. unfold as_po. intros ->. congruence. Qed.
Lemma zh_read : read_po zh_CN_po = PoOk zh_file.
Proof. exact (as_po_read _ _ zh_as_po). Qed.
Lemma ships_zh m t : ships m t <-> In (m, t) zh.
Proof.
  split.
  - intros (f & e & R & I & N & _ & <- & <-). apply read_as_po with (2 := zh_as_po) in R. subst f. destruct (zh_ids e I) as [X|[_ X]]; [contradiction|exact X].
  - intros I. destruct (zh_ships m t I) as (e & J & C & Ei & Es). exists zh_file, e. rewrite Ei. split; [exact zh_read|].
    split; [exact J|]. split; [exact (zh_named m t I)|]. split; [exact C|]. split; [reflexivity|exact Es].
Qed.
Lemma complete : forall m, In m messages -> ~ In m untranslated ->
  exists t, In (m, t) zh /\ t <> [] /\ (~ In m curtailed -> same_verbs m t).
Proof.
  intros m I Nu. cbn [messages In] in I.
  repeat (destruct I as [<-|I]; [first
    [ exfalso; apply Nu; left; reflexivity
    | eexists; split; [repeat (first [left; reflexivity|right])|]; split; [discriminate|intros Nc; first
        [ eapply same_by; vm_compute; reflexivity
        | exfalso; apply Nc; repeat (first [left; reflexivity|right])]]]|]).
  destruct I.
Qed.
Theorem C86_complete_partial : forall m, In m messages -> ~ In m untranslated ->
  exists t, ships m t /\ t <> [] /\ (~ In m curtailed -> same_verbs m t).
Proof. intros m I N. destruct (complete m I N) as (t & H & R). exists t. split; [apply ships_zh, H|exact R]. Qed.
Theorem C86_complete_refuted : (exists m, In m messages /\ forall t, ~ ships m t)
  /\ exists m t, In m messages /\ ships m t /\ ~ same_verbs m t.
Proof.
  split.
  - exists (B "failed to read file %v"). split; [repeat (first [left; reflexivity|right])|]. intros t I. apply ships_zh in I.
    apply in_mget in I; [|exact zh_nodup]. vm_compute in I. discriminate.
  - exists (B "context index must end with 'c': %v"), (zh_text (B "context index must end with 'c': %v")).
    split; [repeat (first [left; reflexivity|right])|]. split.
    + apply ships_zh, mget_in. vm_compute. reflexivity.
    + eapply not_same_by; [vm_compute; reflexivity|vm_compute; reflexivity|discriminate].
Qed.
(** nothing in the pack is about a message the program does not have *)
Theorem C86_no_leftovers : forall f e, read_po zh_CN_po = PoOk f -> In e (vals (f_entries f)) -> e_id e <> [] -> In (e_id e) messages /\ e_ctxt e = [].
Proof.
  intros f e R J N. apply read_as_po with (2 := zh_as_po) in R. subst f. destruct (zh_ids e J) as [X|[C I]]; [contradiction|]. split; [|exact C].
  assert (E : forallb (fun p => existsb (beq (fst p)) messages) zh = true) by (vm_compute; reflexivity).
  rewrite forallb_forall in E. specialize (E _ I). apply existsb_exists in E as (x & Hx & Ex). apply beq_eq in Ex. cbn [fst] in Ex. rewrite Ex. exact Hx.
Qed.
End Language.
Print Assumptions C85_embedded.
Print Assumptions C85_path.
Print Assumptions C85_shipped.
Print Assumptions C86_complete_partial.
Print Assumptions C86_complete_refuted.
Print Assumptions C86_no_leftovers.

(** ** C87: what is said about the command line *)
Section Usage.
Variable isp : N -> bool.
Variable tr : bytes -> bytes.
Variable print : spec -> GoFmt.arg (list bytes) -> bytes.
Variable as_int : GoFmt.arg (list bytes) -> option Z.
Variable extra : list (GoFmt.arg (list bytes)) -> bytes.
Variable open_err read_err : bytes -> bytes.
Variable parse_err : list bytes -> bytes -> bytes -> bytes -> bytes.
Variable write_err : bytes -> bytes.
Variable close_err : bytes.
Variable globs : fs -> bytes -> option (list bytes).
Variable creatable : bytes -> bool.
Variable parses : list bytes -> bytes -> bytes -> bytes -> option (list tnode).
Variable letter number : N -> bool.
Variable written : bytes -> Z * bool.
Variable closes : bool.
Variable version : bytes.
Variable info : option (bytes * list (bytes * bytes)).
Variable prog : bytes.
Notation main_e := (main_e isp tr print as_int extra open_err read_err parse_err write_err close_err globs creatable parses letter number written closes version info
  (usage_text isp tr print as_int extra prog) (complaint_text isp)).
Hypothesis Ex : explains_flags tr.
(** Wrong arguments: the message is about the first of them and names it; the usage text
    follows; nothing else happens. *)
Theorem C87_wrong : forall now args w,
  (forall text, first_wrong isp args text -> exists head, says tr usage_head [prog] head
    /\ (forall status fs out err, main_e now args w status fs out err <->
          status = 2 /\ fs = w /\ out = [] /\ err = text ++ [NL] ++ concat (usage_lines head tr)))
  /\ ((exists text, first_wrong isp args text) <-> (forall vs, ~ command vs args) /\ ~ asks_help args).
Proof.
  intros now args w. destruct (usage_says isp tr print as_int extra prog Ex) as (head & Sy & Us). split.
  - intros text W. exists head. split; [exact Sy|]. destruct (first_wrong_found isp args text default_flags W) as [P E].
    intros status fs out err. split.
    + intros M. destruct M as [Q|Q|x Q Ev|x Q Ev Eh|x Q Ev Eh Eb|x o w' out err why Q Ev Eh Ed Eb R]; try congruence.
      repeat split. unfold complaint_text. rewrite E, Us, <- app_assoc. reflexivity.
    + intros (-> & -> & -> & ->). replace (text ++ [NL] ++ concat (usage_lines head tr)) with (complaint_text isp args ++ usage_text isp tr print as_int extra prog).
      * apply ME_bad, P.
      * unfold complaint_text. rewrite E, Us, <- app_assoc. reflexivity.
  - split.
    + intros (text & W). destruct (first_wrong_found isp args text default_flags W) as [P _]. split.
      * intros vs C. apply (parse_command vs args default_flags) in C. congruence.
      * intros H. apply (parse_help args default_flags) in H. congruence.
    + intros [N1 N2]. exists (flag_error isp args). pose proof (parse_shape1 (length args) args default_flags (le_n _)) as Sh.
      destruct (parse_flags args default_flags) eqn:P.
      * destruct Sh as (vs & C & _). destruct (N1 vs C).
      * contradiction.
      * exact (flag_error_spec isp (length args) args default_flags (le_n _) P).
Qed.
(** Help that is asked for, and a missing -i or -k. *)
Theorem C87_help : forall now args w, exists head, says tr usage_head [prog] head /\ forall status fs out err, main_e now args w status fs out err ->
  (asks_help args \/ (exists vs, command vs args /\ bool_of (B "v") vs = false /\ bool_of (B "h") vs = true) ->
    status = 0 /\ fs = w /\ out = [] /\ err = concat (usage_lines head tr))
  /\ (forall vs, command vs args -> bool_of (B "v") vs = false -> bool_of (B "h") vs = false ->
      trim_space (text_of (B "i") [] vs) = [] \/ trim_space (text_of (B "k") [] vs) = [] ->
      status = 2 /\ fs = w /\ out = [] /\ err = concat (usage_lines head tr) ++ tr (B "flags -i and -k are required") ++ [NL]).
Proof.
  intros now args w. destruct (usage_says isp tr print as_int extra prog Ex) as (head & Sy & Us). exists head. split; [exact Sy|].
  intros status fs out err M. split.
  - intros [H|(vs & C & Hv & Hh)].
    + apply (parse_help args default_flags) in H. destruct M as [Q|Q|x Q Ev|x Q Ev Eh|x Q Ev Eh Eb|x o w' out err why Q Ev Eh Ed Eb R]; try congruence. auto.
    + pose proof (parse_meant vs args C) as P.
      destruct M as [Q|Q|x Q Ev|x Q Ev Eh|x Q Ev Eh Eb|x o w' out err why Q Ev Eh Ed Eb R]; rewrite P in Q; try discriminate; injection Q as <-;
        cbn [meant fl_v fl_h] in *; try congruence. auto.
  - intros vs C Hv Hh Hb. pose proof (parse_meant vs args C) as P.
    assert (Q' : blank_text (fl_i (meant vs)) || blank_text (fl_k (meant vs)) = true).
    { cbn [meant fl_i fl_k]. unfold blank_text. destruct Hb as [-> | ->]; cbn [is_empty orb]; [reflexivity|]. apply orb_true_r. }
    destruct M as [Q|Q|x Q Ev|x Q Ev Eh|x Q Ev Eh Eb|x o w' out err why Q Ev Eh Ed Eb R]; rewrite P in Q; try discriminate; injection Q as <-;
      try (cbn [meant fl_v fl_h] in *; congruence). rewrite Us. auto.
Qed.
End Usage.
Print Assumptions C87_wrong.
Print Assumptions C87_help.

(** ** The whole program, as shipped *)
Section Shipped.
Variable norm : bytes -> bytes.
Variable isp : N -> bool.
Variable print : spec -> GoFmt.arg (list bytes) -> bytes.
Variable as_int : GoFmt.arg (list bytes) -> option Z.
Variable extra : list (GoFmt.arg (list bytes)) -> bytes.
Variable open_err read_err : bytes -> bytes.
Variable parse_err : list bytes -> bytes -> bytes -> bytes -> bytes.
Variable write_err : bytes -> bytes.
Variable close_err : bytes.
Variable globs : fs -> bytes -> option (list bytes).
Variable creatable : bytes -> bool.
Variable parses : list bytes -> bytes -> bytes -> bytes -> option (list tnode).
Variable letter number : N -> bool.
Variable written : bytes -> Z * bool.
Variable closes : bool.
Variable version : bytes.
Variable info : option (bytes * list (bytes * bytes)).
Variable lp : option bytes.
Variable tree : bytes -> option node.
Variable d0 d prog : bytes.
Notation xtemplate := (xtemplate norm print as_int extra isp open_err read_err parse_err write_err close_err globs creatable parses letter number written closes
  version info lp tree d0 d prog).
Hypothesis Np : no_path lp.
(** the language the user reads: each message in it is the message or its translation *)
Definition reads_in (tr : bytes -> bytes) : Prop :=
  (d = norm (B "zh_CN") -> forall m, m <> [] -> said_by zh m (tr m)) /\ (d <> norm (B "zh_CN") -> forall m, tr m = m).
(** Whatever the command line, the templates and the file system: on success the
    warnings of C82; on failure an explanation; in the language of the user. *)
Theorem C85_reports : exists tr, reads_in tr /\ forall now args w status fs out err, xtemplate now args w status fs out err ->
  (forall vs, extraction args vs ->
     (status = 0%nat -> exists kws files rs lines es, let p := asked vs in let names := known p kws in let w1 := opened p w in
        XtSpec.spells (p_keyword p) kws /\ globs w1 (p_input p) = Some files
        /\ told parses p names w1 kws [] files rs /\ Forall2 (notice p names w1 tr read_err parse_err) rs lines /\ err = concat lines
        /\ collected parses p names w1 kws files es /\ picked (conflicts es) es (warned_of rs))
     /\ (status <> 0%nat -> status = 2%nat /\ exists before why text, err = before ++ text
        /\ (says tr (B "run error: %v") [why] text \/ says tr (B "unexpected error: %+v" ++ [NL]) [why] text)))
  /\ exists head, says tr usage_head [prog] head
     /\ (forall text, first_wrong isp args text -> status = 2%nat /\ fs = w /\ out = [] /\ err = text ++ [NL] ++ concat (usage_lines head tr))
     /\ (asks_help args -> status = 0%nat /\ fs = w /\ out = [] /\ err = concat (usage_lines head tr)).
Proof.
  exists (own_text print as_int extra (started norm lp tree d0 d)). destruct (C85_shipped norm print as_int extra lp tree d0 d Np) as [So Ex].
  destruct (C85_embedded norm print as_int extra lp tree d0 d Np) as [E1 E2]. split.
  - split.
    + intros Ed m Nm. destruct (E1 Ed m [] Nm) as (t & St & E). unfold own_text. rewrite E. exact St.
    + intros Ed m. unfold own_text. rewrite (E2 Ed m []). reflexivity.
  - intros now args w status fs out err M. unfold XtLangModel.xtemplate in M. cbv zeta in M. split.
    + intros vs X. split.
      * intros ->. destruct (C82_warnings _ _ _ _ _ _ _ _ _ _ _ _ _ _ _ _ _ _ _ _ _ So _ _ _ _ _ _ _ X M)
          as (kws & files & rs & lines & es & H1 & H2 & _ & H3). exists kws, files, rs, lines, es. cbv zeta. split; [exact H1|]. split; [exact H2|exact H3].
      * intros Ns. exact (C83_explained _ _ _ _ _ _ _ _ _ _ _ _ _ _ _ _ _ _ _ _ _ So _ _ _ _ _ _ _ _ X M Ns).
    + destruct (C87_help isp _ print as_int extra open_err read_err parse_err write_err close_err globs creatable parses letter number written closes version info prog Ex now args w) as (head & Sy & H). exists head. split; [exact Sy|]. split.
      * intros text W. destruct (C87_wrong isp _ print as_int extra open_err read_err parse_err write_err close_err globs creatable parses letter number written closes version info prog Ex now args w)
          as [H1 _]. destruct (H1 text W) as (head' & Sy' & H2). apply H2 in M. destruct M as (-> & -> & -> & ->).
        assert (head' = head) as -> by (destruct Sy as (ts & R & _ & ->), Sy' as (ts' & R' & _ & ->); rewrite (reads_unique _ _ R _ R'); reflexivity). auto.
      * intros Ah. apply (H _ _ _ _ M). left. exact Ah.
Qed.
End Shipped.
Print Assumptions C85_reports.

(** ** Examples *)
Definition e_tree : bytes -> option node := fun p => if beq p (B "/lang") then Some (NDir (B ".") (Some
  [NFile (B "fr.po") (Content (B "msgid """"" ++ NL :: B "msgstr ""Language: fr\n""" ++ NL :: NL :: B "msgid ""Warning: %v""" ++ NL :: B "msgstr ""Attention : %v""" ++ [NL]))])) else None.
Example C85_example : no_path None /\ no_path (Some (B "  "))
  /\ g_T (fmt_f s_print s_int s_extra) (started (fun l => l) None e_tree (B "en") (B "zh_CN")) (B "too much keyword index") [] = B "关键字指示的位置太多"
  /\ g_T (fmt_f s_print s_int s_extra) (started (fun l => l) None e_tree (B "en") (B "zh_CN")) (B "failed to read file %v") [] = B "failed to read file %v"
  /\ g_T (fmt_f s_print s_int s_extra) (started (fun l => l) None e_tree (B "en") (B "fr")) (B "too much keyword index") [] = B "too much keyword index"
  /\ g_T (fmt_f s_print s_int s_extra) (started (fun l => l) (Some (B "/lang")) e_tree (B "en") (B "fr")) (B "Warning: %v") [] = B "Attention : %v"
  /\ g_T (fmt_f s_print s_int s_extra) (started (fun l => l) (Some (B "/lang")) e_tree (B "en") (B "zh_CN")) (B "too much keyword index") [] = B "too much keyword index".
Proof. split; [intros p; discriminate|]. split; [intros p [= <-]; reflexivity|]. repeat split; vm_compute; reflexivity. Qed.
Example C85_path_example : trim_space (B "/lang") <> [] /\ e_tree (B "/nowhere") = None
  /\ exists t c f, e_tree (B "/lang") = Some t /\ distinct t /\ latest t (B ".po") (po_of (fun l => l) (B "fr")) c /\ as_po c = Some f.
Proof.
  split; [vm_compute; discriminate|]. split; [reflexivity|]. eexists _, _, _. split; [reflexivity|]. split; [|split].
  - repeat (constructor || (intros t [<-|I]; [|revert t I]) || (intros t [])). intros [].
  - exists [B "."; B "fr.po"]. split; [split|split; [|split]].
    + eapply AP_dir; [left; reflexivity|constructor].
    + intros q Hq. inversion Hq as [|? ? t p I Hl]; subst. cbn in I. repeat (destruct I as [<-|I]); inversion Hl; subst; try contradiction.
    + exists [B "."], (B "fr"). reflexivity.
    + eexists. split; [vm_compute; reflexivity|]. split; [vm_compute; discriminate|vm_compute; reflexivity].
    + intros q c' [Ha _] Nq _. inversion Ha as [|? ? t p c I Hl]; subst. cbn in I. destruct I as [<-|[]]. inversion Hl; subst. left. reflexivity.
  - vm_compute. reflexivity.
Qed.
Example C86_example : In (B "Warning: %v") messages /\ ~ In (B "Warning: %v") untranslated /\ ~ In (B "Warning: %v") curtailed
  /\ ships (B "Warning: %v") (B "警告：%v") /\ same_verbs (B "Warning: %v") (B "警告：%v").
Proof.
  split; [repeat (first [left; reflexivity|right])|]. split; [intros [H|[]]; discriminate|]. split; [intros [H|[H|[]]]; discriminate|].
  split; [apply ships_zh; repeat (first [left; reflexivity|right])|]. eapply same_by; vm_compute; reflexivity.
Qed.
(** a Chinese user gives a flag the program does not have *)
Definition e_usage : bytes :=
  B "xt 的用法：" ++ NL :: B "xtemplate -i 输入文件 -k 关键字 [-f 模版中函数] [-o 输出文件]" ++ NL ::
  B "  -d" ++ TAB ++ B "debug 模式" ++ NL :: B "  -f string" ++ NL :: B "    " ++ TAB ++ B "模板中用到的函数名" ++ NL ::
  B "  -h" ++ TAB ++ B "显示帮助信息" ++ NL :: B "  -i string" ++ NL :: B "    " ++ TAB ++ B "输入文件" ++ NL ::
  B "  -k string" ++ NL :: B "    " ++ TAB ++ B "关键字，例： gettext;T:1;N:1,2;X:1c,2;XN:1c,2,3" ++ NL ::
  B "  -left string" ++ NL :: B "    " ++ TAB ++ B "左分隔符 (default ""{{"")" ++ NL :: B "  -o string" ++ NL :: B "    " ++ TAB ++ B "输出文件，- 表示标准输出" ++ NL ::
  B "  -right string" ++ NL :: B "    " ++ TAB ++ B "右分隔符 (default ""}}"")" ++ NL :: B "  -v" ++ TAB ++ B "显示版本号" ++ [NL].
Example C87_example : first_wrong s_letter [B "-i"; B "*.html"; B "--keyword=T"; B "-k"] (B "flag provided but not defined: -keyword")
  /\ first_wrong s_letter [B "-h=maybe"] (B "invalid boolean value ""maybe"" for -h: parse error")
  /\ first_wrong s_letter [B "-i"; B "x"; B "-k"] (B "flag needs an argument: -k")
  /\ first_wrong s_letter [B "---i"] (B "bad flag syntax: ---i")
  /\ xtemplate (fun l => l) s_print s_int s_extra s_letter s_open s_read s_parse s_open [] s_globs s_creatable s_parses s_letter s_letter s_written true (B "dev") None
       None e_tree (B "en") (B "zh_CN") (B "xt") [] [B "-i"; B "*.html"; B "--keyword=T"; B "-k"] (s_fs None None) 2%nat (s_fs None None) []
       (B "flag provided but not defined: -keyword" ++ NL :: e_usage).
Proof.
  split; [|split; [|split; [|split]]].
  - assert (G : gives_flags [(B "i", VText (B "*.html"))] [B "-i"; B "*.html"]).
    { apply (Gi_flag (B "i") (VText (B "*.html")) [B "-" ++ B "i"; B "*.html"]); [|constructor]. apply Sp_next; [left; reflexivity|cbn; auto]. }
    apply (FW_unknown s_letter _ [B "-i"; B "*.html"] (B "--") "k" (B "eyword") (B "=T") [B "-k"] G); try discriminate.
    + cbn; auto.
    + intros I. cbn in I. repeat (destruct I as [I|I]; [discriminate|]). exact I.
    + right. exists (B "T"). reflexivity.
    + intros I. cbn in I. repeat (destruct I as [I|I]; [discriminate|]). exact I.
  - apply (FW_bool s_letter [] [] (B "-") (B "h") (B "maybe") []); [constructor|cbn; auto|cbn; auto| |];
      intros I; cbn in I; repeat (destruct I as [I|I]; [discriminate|]); exact I.
  - apply (FW_missing s_letter [(B "i", VText (B "x"))] [B "-i"; B "x"] (B "-") (B "k")); [|cbn; auto|cbn; auto].
    apply (Gi_flag (B "i") (VText (B "x")) [B "-" ++ B "i"; B "x"]); [|constructor]. apply Sp_next; [left; reflexivity|cbn; auto].
  - apply (FW_syntax s_letter [] [] (B "---i") []); [constructor|]. exists (B "i"). auto.
  - unfold xtemplate. cbv zeta.
    match goal with |- main_e _ _ _ _ _ _ _ _ _ _ _ _ _ _ _ _ _ _ _ ?u ?c _ ?a _ _ _ _ ?e => assert (E : e = c a ++ u) by (vm_compute; reflexivity); rewrite E end.
    apply ME_bad. vm_compute. reflexivity.
Qed.
