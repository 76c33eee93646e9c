(** The reports of a run and the texts on standard error: XtErrModel against XtErrSpec. *)
From Coq Require Import Lia ZifyBool ZifyNat ZifyN Sorted.
From Verif Require Import GoStr GoStrFacts GoQuote GoMap GoMapFacts FileModel PoModel PoSpec BlankSpec BlankFacts
  XtModel XtSpec XtKeyFacts XtFacts XtMergeFacts XtRunFacts WriteModel MainModel XtErrModel XtErrSpec.
From Verif Require Import GoFmt FmtSpec GoFmtFacts FormatFacts XtErrFacts XtErrKeyFacts.
Local Open Scope Z_scope.

(** ** Reports *)
Lemma merges_say l c n : merges l c -> merges l (say c (Failed n)).
Proof.
  intros [N E R P]. constructor; unfold say, c_rejected; cbn [c_entries c_err c_has_plural]; auto.
  rewrite flat_map_app. cbn [flat_map refused]. rewrite !app_nil_r. exact R.
Qed.
Lemma add_warned es : forall l c, merges l c -> exists rs, warned l es rs
  /\ c_err (fold_left ctx_add es c) = c_err c ++ rs /\ merges (l ++ es) (fold_left ctx_add es c).
Proof.
  induction es as [|e es IH]; intros l c M; cbn [fold_left].
  - exists []. rewrite !app_nil_r. split; [constructor|]. auto.
  - destruct (IH (l ++ [e]) (ctx_add c e) (merges_step l c e M)) as (rs & W & E & M').
    rewrite <- app_assoc in M'. cbn [app] in M'.
    destruct (mget (e_key e) (c_entries c)) as [pre|] eqn:G.
    + pose proof (proj1 (m_entries _ _ M _ _) G) as Mp.
      destruct (Bool.eqb_spec (e_plural pre) (e_plural e)) as [Ep|Ep].
      * exists rs. split; [|split; [|exact M']].
        -- apply WA_quiet; [|exact W]. intros m Hm. apply (m_entries _ _ M) in Hm. congruence.
        -- rewrite E. unfold ctx_add. rewrite G. rewrite Ep, Bool.eqb_reflx. reflexivity.
      * exists (Conflict e pre :: rs). split; [|split; [|exact M']].
        -- exact (WA_loud l e es rs pre Mp Ep W).
        -- rewrite E. unfold ctx_add. rewrite G. apply Bool.eqb_false_iff in Ep. rewrite Ep. unfold say. cbn [negb c_err].
           rewrite <- app_assoc. reflexivity.
    + exists rs. split; [|split; [|exact M']].
      * apply WA_quiet; [|exact W]. intros m Hm. apply (m_entries _ _ M) in Hm. congruence.
      * rewrite E. unfold ctx_add. rewrite G. reflexivity.
Qed.
Section Files.
Variable parses : list bytes -> bytes -> bytes -> bytes -> option (list tnode).
Variable letter number : N -> bool.
Variable p : param.
Variable names : list bytes.
Variable w : fs.
Variable kws : list keyword.
Notation good_name := (good_name letter number).
Notation resolve_file := (resolve_file parses letter number p names w).
Notation resolve_files := (resolve_files parses letter number p names w).
Notation told := (told parses p names w kws).
Notation fails := (fails parses p names w).
Notation messages_of := (messages_of parses p names w kws).
Lemma file_emits n : emits kws (fun c => fold_left (fun c t => resolve_node n t c) (trees parses p names w n) c)
  (fun o e => exists j t o' k, o = j :: o' /\ nth_error (trees parses p names w n) j = Some t /\ message n kws t o' k e /\ gapless k).
Proof.
  eapply emits_ext; [| |apply (emits_fold kws (fun t c => resolve_node n t c) (node_hit kws n) (trees parses p names w n)); intros t _; apply emits_node].
  - reflexivity.
  - intros o e. unfold node_hit. split.
    + intros (j & t & o' & E & -> & (k & M & G)). exists j, t, o', k. auto.
    + intros (j & t & o' & k & -> & E & M & G). exists j, t, o'. split; [exact E|]. split; [reflexivity|]. exists k. auto.
Qed.
(** the outcome of one file *)
Lemma file_cases n c l : c_kws c = kws -> merges l c ->
  match resolve_file n c with
  | FErr => fails n
  | FOk c' => ~ fails n /\ exists es rs, messages_of n es /\ warned l es rs /\ c_err c' = c_err c ++ rs
                /\ merges (l ++ es) c' /\ c_kws c' = kws
  | FPanic => exists src bad, w n = Some src /\ In bad (names ++ scan_func_names src) /\ good_name bad = false
  end.
Proof.
  intros Hk M. unfold XtModel.resolve_file. destruct (w n) as [src|] eqn:W; [|left; exact W].
  destruct (forallb good_name (names ++ scan_func_names src)) eqn:G.
  2:{ apply not_true_iff_false in G. rewrite forallb_forall in G.
      assert (X : exists bad, In bad (names ++ scan_func_names src) /\ good_name bad = false).
      { destruct (existsb (fun x => negb (good_name x)) (names ++ scan_func_names src)) eqn:X.
        - apply existsb_exists in X as (x & I & N). exists x. split; [exact I|]. destruct (good_name x); [discriminate|reflexivity].
        - exfalso. apply G. intros x I. destruct (good_name x) eqn:N; [reflexivity|].
          assert (Y : existsb (fun x => negb (good_name x)) (names ++ scan_func_names src) = true).
          { apply existsb_exists. exists x. rewrite N. auto. }
          congruence. }
      destruct X as (bad & I & N). exists src, bad. auto. }
  destruct (parses (names ++ scan_func_names src) (p_left p) (p_right p) src) as [t|] eqn:Pt.
  2:{ right. exists src. auto. }
  split.
  - intros [F|(src' & F & F')]; [congruence|]. rewrite W in F. injection F as <-. congruence.
  - assert (Et : trees parses p names w n = t) by (unfold trees; rewrite W, Pt; reflexivity).
    destruct (file_emits n) as (l0 & L1 & L2 & L3). rewrite Et in L1.
    destruct (add_warned (map snd l0) l c M) as (rs & Wa & E & M').
    exists (map snd l0), rs. split; [exists l0; auto|]. split; [exact Wa|]. rewrite (L1 c Hk). split; [exact E|]. split; [exact M'|].
    rewrite fold_add_kws. exact Hk.
Qed.
Lemma files_told files : forall failed c l c' b, c_kws c = kws -> merges l c -> resolve_files files failed c = Some (c', b) ->
  exists rs, told l files rs /\ c_err c' = c_err c ++ rs /\ (b = true <-> failed = true \/ exists n, In n files /\ fails n).
Proof.
  induction files as [|n files IH]; intros failed c l c' b Hk M; cbn [XtModel.resolve_files].
  - intros E; injection E as <- <-. exists []. split; [constructor|]. split; [symmetry; apply app_nil_r|].
    split; [auto|]. intros [H|(n & [] & _)]. exact H.
  - pose proof (file_cases n c l Hk M) as C. destruct (resolve_file n c) as [c1| |]; [| |discriminate].
    + destruct C as (NF & es & r & Me & W & E1 & M1 & K1). intros R.
      destruct (IH failed c1 (l ++ es) c' b K1 M1 R) as (rs & T & E & Bd).
      exists (r ++ rs). split; [exact (TO_fine _ _ _ _ _ _ _ _ _ _ _ NF Me W T)|]. split; [rewrite E, E1, app_assoc; reflexivity|].
      rewrite Bd. split; intros [H|(m & I & F)]; auto.
      * right. exists m. split; [right; exact I|exact F].
      * destruct I as [<-|I]; [contradiction|]. right. exists m. auto.
    + intros R. destruct (IH true (say c (Failed n)) l c' b Hk (merges_say l c n M) R) as (rs & T & E & Bd).
      exists (Failed n :: rs). split; [exact (TO_fails _ _ _ _ _ _ _ _ _ C T)|].
      split; [rewrite E; unfold say; cbn [c_err]; rewrite <- app_assoc; reflexivity|].
      rewrite Bd. split; [|auto]. intros _. right. exists n. split; [left; reflexivity|exact C].
Qed.
Theorem run_told files c b : resolve_files files false (new_ctx kws) = Some (c, b) ->
  told [] files (c_err c) /\ (b = true <-> exists n, In n files /\ fails n).
Proof.
  intros R. destruct (files_told files false (new_ctx kws) [] c b eq_refl (merges_new kws) R) as (rs & T & E & Bd).
  cbn [new_ctx c_err app] in E. subst rs. split; [exact T|]. rewrite Bd. split; [intros [H|H]; [discriminate|exact H]|auto].
Qed.
(** warnings are no failures *)
Lemma warned_first l es rs rs' : warned l es rs -> first_failed (rs ++ rs') = first_failed rs'.
Proof. induction 1; cbn [app first_failed]; auto. Qed.
Lemma told_first l files rs : told l files rs ->
  match first_failed rs with
  | Some n => exists a b, files = a ++ n :: b /\ fails n /\ forall m, In m a -> ~ fails m
  | None => forall n, In n files -> ~ fails n
  end.
Proof.
  induction 1 as [l|l n files rs F T IH|l n files es r rs NF Me W T IH]; cbn [first_failed].
  - intros n [].
  - exists [], files. split; [reflexivity|]. split; [exact F|intros m []].
  - rewrite (warned_first _ _ _ _ W). destruct (first_failed rs) as [m|].
    + destruct IH as (a & b & -> & Fm & H). exists (n :: a), b. split; [reflexivity|]. split; [exact Fm|].
      intros x [<-|I]; auto.
    + intros m [<-|I]; auto.
Qed.
(** which files are reported *)
Lemma warned_names l es rs : warned l es rs -> failed_names rs = [].
Proof. induction 1; cbn; auto. Qed.
Lemma told_names l files rs : told l files rs -> picked fails files (failed_names rs).
Proof.
  induction 1 as [l|l n files rs F T IH|l n files es r rs NF Me W T IH].
  - constructor.
  - cbn [failed_names flat_map app]. apply PK_yes; assumption.
  - unfold failed_names in *. rewrite flat_map_app. pose proof (warned_names _ _ _ W) as Z. unfold failed_names in Z. rewrite Z. cbn [app].
    apply PK_no; assumption.
Qed.
(** which messages are warned about: those dropped *)
Lemma warned_fun l es rs : warned l es rs -> forall rs', warned l es rs' -> rs = rs'.
Proof.
  intros W. induction W as [l|l e es rs Q W IH|l e es rs m Mm Ne W IH]; intros rs' W'; inversion W'; subst; auto.
  - exfalso. eauto.
  - exfalso. eauto.
  - f_equal; [|auto]. f_equal. destruct Mm as (a & Fa & ->). match goal with H : merged _ _ _ |- _ => destruct H as (b & Fb & ->) end.
    rewrite (first_fun _ _ _ _ Fa Fb). reflexivity.
Qed.
Lemma told_collects l files rs : told l files rs -> exists es, collected parses p names w kws files es
  /\ forall c, merges l c -> exists c', merges (l ++ es) c' /\ c_rejected c' = c_rejected c ++ warned_of rs.
Proof.
  induction 1 as [l|l n files rs F T IH|l n files es r rs NF Me W T IH].
  - exists []. split; [constructor|]. intros c M. exists c. rewrite !app_nil_r. auto.
  - destruct IH as (es & C & H). exists es. split; [apply CO_fails; assumption|exact H].
  - destruct IH as (es' & C & H). exists (es ++ es'). split; [apply CO_fine; assumption|]. intros c M.
    destruct (add_warned es l c M) as (r' & W' & E & M'). rewrite <- (warned_fun _ _ _ W _ W') in E.
    destruct (H _ M') as (c' & M2 & E2). exists c'. rewrite app_assoc. split; [exact M2|].
    rewrite E2. unfold c_rejected. rewrite E. unfold warned_of. rewrite !flat_map_app, <- app_assoc. reflexivity.
Qed.
Lemma told_warned files rs : told [] files rs -> exists es, collected parses p names w kws files es /\ picked (conflicts es) es (warned_of rs).
Proof.
  intros T. destruct (told_collects _ _ _ T) as (es & C & H). exists es. split; [exact C|].
  destruct (H _ (merges_new kws)) as (c' & M & E). cbn [app] in *. pose proof (m_rejected _ _ M) as P. rewrite E in P. exact P.
Qed.
(** a file that makes the run panic *)
Lemma files_app a b : forall failed c, resolve_files (a ++ b) failed c =
  match resolve_files a failed c with Some (c', f') => resolve_files b f' c' | None => None end.
Proof.
  induction a as [|n a IH]; intros failed c; cbn [app XtModel.resolve_files]; [reflexivity|].
  destruct (resolve_file n c); [apply IH|apply IH|reflexivity].
Qed.
Lemma files_panic files : forall failed c l, c_kws c = kws -> merges l c -> resolve_files files failed c = None ->
  exists a n b c' f' src bad, files = a ++ n :: b /\ resolve_files a failed c = Some (c', f')
    /\ w n = Some src /\ In bad (names ++ scan_func_names src) /\ good_name bad = false.
Proof.
  induction files as [|n files IH]; intros failed c l Hk M; cbn [XtModel.resolve_files]; [discriminate|].
  pose proof (file_cases n c l Hk M) as C. destruct (resolve_file n c) as [c1| |] eqn:Rf.
  - destruct C as (NF & es & r & Me & W & E1 & M1 & K1). intros R.
    destruct (IH failed c1 (l ++ es) K1 M1 R) as (a & m & b & c' & f' & src & bad & -> & Ra & H).
    exists (n :: a), m, b, c', f', src, bad. split; [reflexivity|]. split; [|exact H]. cbn [XtModel.resolve_files]. rewrite Rf. exact Ra.
  - intros R. destruct (IH true (say c (Failed n)) l Hk (merges_say l c n M) R) as (a & m & b & c' & f' & src & bad & -> & Ra & H).
    exists (n :: a), m, b, c', f', src, bad. split; [reflexivity|]. split; [|exact H]. cbn [XtModel.resolve_files]. rewrite Rf. exact Ra.
  - intros _. destruct C as (src & bad & C). exists [], n, files, c, failed, src, bad. split; [reflexivity|]. split; [reflexivity|exact C].
Qed.
Lemma bad_panics n src bad c : w n = Some src -> In bad (names ++ scan_func_names src) -> good_name bad = false -> resolve_file n c = FPanic.
Proof.
  intros W I G. unfold XtModel.resolve_file. rewrite W.
  destruct (forallb good_name (names ++ scan_func_names src)) eqn:F; [|reflexivity].
  rewrite forallb_forall in F. specialize (F bad I). congruence.
Qed.
End Files.

(** ** Texts *)
Section Texts.
Variable isp : N -> bool.
Variable tr : bytes -> bytes.
Variable print : spec -> arg (list bytes) -> bytes.
Variable as_int : arg (list bytes) -> option Z.
Variable extra : list (arg (list bytes)) -> bytes.
Notation errorf := (errorf print as_int extra).
Notation print_err := (print_err print as_int extra).
Hypothesis Kv : sound tr.
(** a message whose verbs are known *)
Lemma says_errorf m ts args : reads m ts -> In m frames -> Forall textual args -> length ts = S (length args) ->
  says tr m (map shown args) (errorf (tr m) args).
Proof.
  intros R I T L. destruct (proj1 Kv m I ts R) as (ts' & R' & L'). exists ts'. split; [exact R'|]. split; [rewrite map_length; congruence|].
  apply errorf_reads; [exact R'|exact T|congruence].
Qed.
Lemma says_print m ts args : reads m ts -> In m frames -> Forall textual args -> length ts = S (length args) ->
  exists text, says tr m (map shown args) text /\ print_err (tr m) args = text ++ [NL].
Proof.
  intros R I T L. destruct (proj1 Kv m I ts R) as (ts' & R' & L').
  destruct (reads_snoc _ _ NL R') as (ts2 & R2 & L2 & F2); [discriminate|].
  exists (fill ts' (map shown args)). split; [exists ts'; split; [exact R'|]; split; [rewrite map_length; congruence|reflexivity]|].
  unfold XtErrModel.print_err. rewrite (errorf_reads print as_int extra _ ts2 args R2 T) by congruence.
  apply F2. rewrite map_length. congruence.
Qed.
End Texts.

Section Notices.
Variable isp : N -> bool.
Variable tr : bytes -> bytes.
Variable print : spec -> arg (list bytes) -> bytes.
Variable as_int : arg (list bytes) -> option Z.
Variable extra : list (arg (list bytes)) -> bytes.
Hypothesis Kv : sound tr.
Variable parses : list bytes -> bytes -> bytes -> bytes -> option (list tnode).
Variable read_err : bytes -> bytes.
Variable parse_err : list bytes -> bytes -> bytes -> bytes -> bytes.
Variable p : param.
Variable names : list bytes.
Variable w : fs.
Notation errorf := (errorf print as_int extra).
Notation explains := (explains p names w tr read_err parse_err).
Notation notice := (notice p names w tr read_err parse_err).
Notation file_err := (file_err tr print as_int extra read_err parse_err).
Notation report_text := (report_text tr print as_int extra).
Ltac no_percent := let H := fresh in vm_compute; intros H; repeat (destruct H as [H|H]; [discriminate|]); exact H.
Lemma reads_v t f ts : ~ In "%"%char t -> reads f ts -> reads (t ++ B "%v" ++ f) (t :: ts).
Proof. intros N R. apply (RD_hole t (B "v") f ts); [exact N|left; reflexivity|exact R]. Qed.
Lemma reads_read : reads (B "failed to read file %v") [B "failed to read file "; []].
Proof. apply (reads_v (B "failed to read file ") [] [[]]); [no_percent|]. apply RD_end. intros []. Qed.
Lemma reads_parse : reads (B "failed to parse file %v") [B "failed to parse file "; []].
Proof. apply (reads_v (B "failed to parse file ") [] [[]]); [no_percent|]. apply RD_end. intros []. Qed.
Lemma reads_process : reads (B "failed to process file %v. error message: %v") [B "failed to process file "; B ". error message: "; []].
Proof.
  apply (reads_v (B "failed to process file ") (B ". error message: %v") [B ". error message: "; []]); [no_percent|].
  apply (reads_v (B ". error message: ") [] [[]]); [no_percent|]. apply RD_end. intros [].
Qed.
Lemma reads_warning : reads (B "Warning: %v") [B "Warning: "; []].
Proof. apply (reads_v (B "Warning: ") [] [[]]); [no_percent|]. apply RD_end. intros []. Qed.
Lemma reads_msgid : reads (B "msgid '%v' is used without plural and with plural." ++ NL :: B "Line    =%v" ++ NL :: B "Previous=%v")
  [B "msgid '"; B "' is used without plural and with plural." ++ NL :: B "Line    ="; NL :: B "Previous="; []].
Proof.
  apply (reads_v (B "msgid '") (B "' is used without plural and with plural." ++ NL :: B "Line    =%v" ++ NL :: B "Previous=%v")); [no_percent|].
  apply (reads_v (B "' is used without plural and with plural." ++ NL :: B "Line    =") (NL :: B "Previous=%v")); [no_percent|].
  apply (reads_v (NL :: B "Previous=") [] [[]]); [no_percent|]. apply RD_end. intros [].
Qed.
Lemma reads_run_error : reads (B "run error: %v") [B "run error: "; []].
Proof. apply (reads_v (B "run error: ") [] [[]]); [no_percent|]. apply RD_end. intros []. Qed.
Lemma reads_unexpected : reads (B "unexpected error: %+v" ++ [NL]) [B "unexpected error: "; [NL]].
Proof. apply (RD_hole (B "unexpected error: ") (B "+v") [NL] [[NL]]); [no_percent|right; right; left; reflexivity|]. apply RD_end. no_percent. Qed.
Lemma says_one m t s x : reads m [t; s] -> In m frames -> says tr m [x] (errorf (tr m) [VStr x]).
Proof. intros R I. apply (says_errorf tr print as_int extra Kv m _ [VStr x] R I); [repeat constructor|reflexivity]. Qed.
Lemma wrapf_says m t s x cause : reads m [t; s] -> In m frames -> exists text, says tr m [x] text /\ wrapf print as_int extra cause (tr m) [VStr x] = because text cause.
Proof.
  intros R I. eexists. split; [exact (says_one m t s x R I)|]. unfold wrapf. destruct (errorf (tr m) [VStr x]); reflexivity.
Qed.
Lemma file_explains n : fails parses p names w n -> explains n (file_err p names w n).
Proof.
  intros F. unfold XtErrModel.file_err. destruct (w n) as [src|] eqn:W.
  - destruct (wrapf_says _ _ _ n (parse_err (names ++ scan_func_names src) (p_left p) (p_right p) src) reads_parse ltac:(among)) as (text & Sy & E).
    exists text. right. exists src. auto.
  - destruct (wrapf_says _ _ _ n (read_err n) reads_read ltac:(among)) as (text & Sy & E). exists text. left. auto.
Qed.
Lemma report_notice r : (forall n, r = Failed n -> fails parses p names w n) -> notice r (report_text (file_err p names w) r).
Proof.
  intros F. destruct r as [e m|n]; cbn [XtErrModel.report_text].
  - match goal with |- context [print_err _ _ _ _ [VStr ?y]] => set (why := y) end.
    assert (Wy : says tr (B "msgid '%v' is used without plural and with plural." ++ NL :: B "Line    =%v" ++ NL :: B "Previous=%v")
      [e_id e; listed (e_cmts e); listed (e_cmts m)] why).
    { apply (says_errorf tr print as_int extra Kv _ _ [VStr (e_id e); VOther (e_cmts e); VOther (e_cmts m)] reads_msgid ltac:(among)); [repeat constructor|reflexivity]. }
    destruct (says_print tr print as_int extra Kv _ _ [VStr why] reads_warning ltac:(among)) as (text & Sy & E); [repeat constructor|reflexivity|].
    rewrite E. exact (NO_conflict _ _ _ _ _ _ e m why text Wy Sy).
  - destruct (says_print tr print as_int extra Kv _ _ [VStr n; VStr (file_err p names w n)] reads_process ltac:(among)) as (text & Sy & E); [repeat constructor|reflexivity|].
    rewrite E. exact (NO_failed _ _ _ _ _ _ n _ text (file_explains n (F n eq_refl)) Sy).
Qed.
Lemma told_fails kws l files rs : told parses p names w kws l files rs -> forall n, In (Failed n) rs -> fails parses p names w n.
Proof.
  induction 1 as [l|l n files rs F T IH|l n files es r rs NF Me W T IH]; intros m I.
  - destruct I.
  - destruct I as [I|I]; [injection I as <-; exact F|auto].
  - apply in_app_or in I as [I|I]; [|auto]. exfalso. clear - W I. induction W; auto. destruct I as [I|I]; [discriminate|auto].
Qed.
Lemma told_notices kws l files rs : told parses p names w kws l files rs -> Forall2 notice rs (map (report_text (file_err p names w)) rs).
Proof.
  intros T. pose proof (told_fails _ _ _ _ T) as F. clear T. induction rs as [|r rs IH]; constructor.
  - apply report_notice. intros n ->. apply F. left; reflexivity.
  - apply IH. intros n I. apply F. right; exact I.
Qed.
End Notices.

(** ** Runs with and without standard error *)
Definition same_fs (w w' : fs) : Prop := forall n, w n = w' n.
Lemma fs_twice w o t t' : same_fs (fs_set w o t') (fs_set (fs_set w o t) o t').
Proof. intros n. unfold fs_set. destruct (beq n o); reflexivity. Qed.
Section Runs.
Variable isp : N -> bool.
Variable tr : bytes -> bytes.
Variable print : spec -> arg (list bytes) -> bytes.
Variable as_int : arg (list bytes) -> option Z.
Variable extra : list (arg (list bytes)) -> bytes.
Variable open_err read_err : bytes -> bytes.
Variable parse_err : list bytes -> bytes -> bytes -> bytes -> bytes.
Variable write_err : bytes -> bytes.
Variable close_err : bytes.
Variable globs : fs -> bytes -> option (list bytes).
Variable creatable : bytes -> bool.
Variable parses : list bytes -> bytes -> bytes -> bytes -> option (list tnode).
Variable letter number : N -> bool.
Variable written : bytes -> Z * bool.
Variable closes : bool.
Notation runs_e := (runs_e isp tr print as_int extra open_err read_err parse_err write_err close_err globs creatable parses letter number written closes).
Notation runs_io := (runs_io isp globs creatable parses letter number written closes).
Notation file_err := (file_err tr print as_int extra read_err parse_err).
Notation report_text := (report_text tr print as_int extra).
Notation parse_keywords_e := (parse_keywords_e isp tr print as_int extra).
Lemma kw_some str kws : parse_keywords_e str = inl kws -> parse_keywords str = Some kws.
Proof. intros H. rewrite <- (keywords_erase isp tr print as_int extra), H. reflexivity. Qed.
Lemma kw_none str why : parse_keywords_e str = inr why -> parse_keywords str = None.
Proof. intros H. rewrite <- (keywords_erase isp tr print as_int extra), H. reflexivity. Qed.
Lemma kw_inl str kws : parse_keywords str = Some kws -> parse_keywords_e str = inl kws.
Proof. rewrite <- (keywords_erase isp tr print as_int extra). destruct (parse_keywords_e str); [|discriminate]. intros E. injection E as ->. reflexivity. Qed.
Lemma kw_inr str : parse_keywords str = None -> exists why, parse_keywords_e str = inr why.
Proof. rewrite <- (keywords_erase isp tr print as_int extra). destruct (parse_keywords_e str) as [|why]; [discriminate|]. intros _. exists why. reflexivity. Qed.
Theorem runs_e_io now p w o fs out err why : runs_e now p w o fs out err why ->
  exists fs', runs_io now p w o fs' out /\ same_fs fs fs'.
Proof.
  intros R. destruct R as [why K|kws K T C|kws w1 K W G|kws w1 a n b c failed src bad K W G names R Wn I Bn|kws w1 files c n K W G names R F
                          |kws w1 files c f text r taken K W G names R Mk Sv Wt o].
  - exists w. split; [|intros ?; reflexivity]. apply IO_before; [|discriminate]. apply R_keywords. exact (kw_none _ _ K).
  - exists w. split; [|intros ?; reflexivity]. apply IO_before; [|discriminate]. apply (R_open _ _ _ _ _ _ _ _ _ kws); auto using kw_some.
  - exists w1. split; [|intros ?; reflexivity]. apply IO_before; [|discriminate]. apply (R_glob _ _ _ _ _ _ _ _ _ kws); auto using kw_some.
  - exists w1. split; [|intros ?; reflexivity]. apply IO_before; [|discriminate]. apply (R_panic _ _ _ _ _ _ _ _ _ kws _ (a ++ n :: b)); auto using kw_some.
    fold names. rewrite files_app, R. cbn [resolve_files]. rewrite (bad_panics _ _ _ _ _ _ n src bad c Wn I Bn). reflexivity.
  - exists w1. split; [|intros ?; reflexivity]. apply IO_before; [|discriminate]. apply (R_file _ _ _ _ _ _ _ _ _ kws _ files c); auto using kw_some.
  - exists (if to_file p then fs_set (if to_file p then fs_set w1 (p_output p) text else w1) (p_output p) taken else (if to_file p then fs_set w1 (p_output p) text else w1)).
    split.
    + unfold o. apply (IO_write _ _ _ _ _ _ _ _ now p w _ (if to_file p then [] else text) text r taken); [|destruct (to_file p)|exact Wt].
      * apply (R_done _ _ _ _ _ _ _ _ _ kws w1 files c f text); auto using kw_some.
      * left. split; [reflexivity|]. unfold fs_set. rewrite beq_refl. reflexivity.
      * right. auto.
    + destruct (to_file p); [apply fs_twice|intros ?; reflexivity].
Qed.
Theorem runs_io_e now p w o fs out : runs_io now p w o fs out ->
  exists fs' err why, runs_e now p w o fs' out err why /\ same_fs fs fs'.
Proof.
  intros R. destruct R as [o w' out R No|w' out text r taken R Tx Wt].
  - destruct R as [K|kws K T C|kws w1 K W G|kws w1 files K W G R|kws w1 files c K W G R|]; [| | | | |contradiction].
    + destruct (kw_inr _ K) as (why & K'). exists w, [], why. split; [apply E_keywords; exact K'|intros ?; reflexivity].
    + eexists w, [], _. split; [eapply E_open; eauto using kw_inl|intros ?; reflexivity].
    + eexists w1, [], _. split; [eapply E_glob; eauto using kw_inl|intros ?; reflexivity].
    + destruct (files_panic parses letter number p _ w1 kws files false (new_ctx kws) [] eq_refl (merges_new kws) R)
        as (a & n & b & c' & f' & src & bad & -> & Ra & Wn & I & Bn).
      eexists w1, _, _. split; [eapply E_panic; eauto using kw_inl|intros ?; reflexivity].
    + destruct (run_told parses letter number p _ w1 kws files c true R) as (T & Bd).
      pose proof (told_first _ _ _ _ _ _ _ _ T) as F. destruct (first_failed (c_err c)) as [n|] eqn:Ff.
      * eexists w1, _, _. split; [eapply E_file; eauto using kw_inl|intros ?; reflexivity].
      * exfalso. destruct Bd as [Bd _]. destruct (Bd eq_refl) as (n & I & Fn). exact (F n I Fn).
  - inversion R as [| | | | |kws w1 files c f out' K W G Rf Mk Sv E1 E2 E3]. subst.
    assert (out' = text) as ->.
    { destruct Tx as [(T & Tx)|(T & Tx)]; rewrite T in Tx; [|exact Tx].
      unfold fs_set in Tx. rewrite beq_refl in Tx. injection Tx as <-. reflexivity. }
    eexists _, _, _. split; [eapply E_write; eauto using kw_inl|].
    destruct (to_file p); [|intros ?; reflexivity]. intros n. symmetry. apply fs_twice.
Qed.
Variable version : bytes.
Variable info : option (bytes * list (bytes * bytes)).
Variable usage : bytes.
Variable complaint : list bytes -> bytes.
Notation main_e := (main_e isp tr print as_int extra open_err read_err parse_err write_err close_err globs creatable parses letter number written closes version info usage complaint).
Notation main := (main isp globs creatable parses letter number written closes version info).
Definition debugs (args : list bytes) : bool := match parse_flags args default_flags with PFlags x => fl_d x | _ => false end.
Theorem main_e_main now args w status fs out err : main_e now args w status fs out err ->
  exists fs', main now args w status fs' out /\ same_fs fs fs'.
Proof.
  intros M. destruct M as [P|P|x P V|x P V H|x P V H Q|x o w' out err why P V H D Q R].
  - exists w. split; [apply M_bad; exact P|intros ?; reflexivity].
  - exists w. split; [apply M_help; exact P|intros ?; reflexivity].
  - exists w. split; [eapply M_version; eauto|intros ?; reflexivity].
  - exists w. split; [eapply M_usage; eauto|intros ?; reflexivity].
  - exists w. split; [eapply M_required; eauto|intros ?; reflexivity].
  - destruct (runs_e_io _ _ _ _ _ _ _ _ R) as (fs' & R' & Sm). exists fs'. split; [|exact Sm].
    change out with ([] ++ out). eapply M_run; eauto. rewrite D. reflexivity.
Qed.
Theorem main_main_e now args w status fs out : debugs args = false -> main now args w status fs out ->
  exists fs' err, main_e now args w status fs' out err /\ same_fs fs fs'.
Proof.
  intros D M. destruct M as [P|P|x P V|x P V H|x P V H Q|x o w' out dbg P V H Q R Dt].
  - eexists w, _. split; [apply ME_bad; exact P|intros ?; reflexivity].
  - eexists w, _. split; [apply ME_help; exact P|intros ?; reflexivity].
  - eexists w, _. split; [eapply ME_version; eauto|intros ?; reflexivity].
  - eexists w, _. split; [eapply ME_usage; eauto|intros ?; reflexivity].
  - eexists w, _. split; [eapply ME_required; eauto|intros ?; reflexivity].
  - unfold debugs in D. rewrite P in D. rewrite D in Dt. cbn [debug_text] in Dt. subst dbg. cbn [app].
    destruct (runs_io_e _ _ _ _ _ _ R) as (fs' & err & why & R' & Sm). eexists fs', _. split; [eapply ME_run; eauto|exact Sm].
Qed.
End Runs.
