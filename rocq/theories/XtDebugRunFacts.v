(** Debug mode: files, runs and the messages announced. *)
From Coq Require Import Lia ZifyBool ZifyNat ZifyN Sorted List.
From Verif Require Import GoStr GoStrFacts GoMap GoMapFacts FileModel PoModel XtModel XtSpec XtKeyFacts XtFacts XtMergeFacts XtRunFacts
  WriteModel MainModel XtErrModel XtErrSpec.
From Verif Require Import GoFmt XtErrFacts XtErrKeyFacts XtErrRunFacts XtDebugModel XtDebugSpec XtDebugFacts.
Import ListNotations.
Local Open Scope Z_scope.

(** ** One file *)
Lemma logged_deep file kws t o d : logged file kws t o d -> o <> [].
Proof.
  intros [o1 line p o2 d' N H|o' line H]; [|destruct H; discriminate].
  destruct N; discriminate.
Qed.
Lemma speaks_tmpl kws file t : speaks kws (resolve_tmpl_d file t) (resolve_node file t)
  (fun o d => o = [] /\ d = DTemplate file \/ logged file kws t o d).
Proof.
  apply speaks_part; [apply speaks_node|]. intros o d H ->. destruct (logged_deep _ _ _ _ _ H eq_refl).
Qed.
Section Files.
Variable parses : list bytes -> bytes -> bytes -> bytes -> option (list tnode).
Variable letter number : N -> bool.
Variable p : param.
Variable names : list bytes.
Variable w : fs.
Variable kws : list keyword.
Notation resolve_file := (resolve_file parses letter number p names w).
Notation resolve_files := (resolve_files parses letter number p names w).
Notation resolve_file_d := (resolve_file_d parses letter number p names w).
Notation resolve_files_d := (resolve_files_d parses letter number p names w).
Notation file_said := (file_said parses p names w kws).
Notation file_log := (file_log parses p names w kws).
Notation misnamed := (misnamed letter number names w).
Notation fails := (fails parses p names w).
Notation trees := (trees parses p names w).
Lemma fails_trees n : fails n -> trees n = [].
Proof. unfold XtSpec.trees. intros [->|(src & -> & ->)]; reflexivity. Qed.
Lemma said_head n : trees n = [] -> file_log n [DFile n].
Proof.
  intros E. eapply complete_ext; [|apply complete_one]. intros o d. split.
  - intros [-> ->]. apply FS_file.
  - intros [|j t H|j t o' d' H]; [auto|rewrite E in H; destruct j; discriminate..].
Qed.
Lemma file_speaks n c : c_kws c = kws -> fst (resolve_file_d n c) = resolve_file n c
  /\ (resolve_file n c <> FPanic -> file_log n (snd (resolve_file_d n c)))
  /\ (resolve_file n c = FPanic -> snd (resolve_file_d n c) = [DFile n]).
Proof.
  intros Hk. unfold XtDebugModel.resolve_file_d, XtModel.resolve_file.
  destruct (w n) as [src|] eqn:W.
  2:{ cbn [fst snd]. split; [reflexivity|]. split; [|discriminate]. intros _. apply said_head, fails_trees. left; exact W. }
  destruct (forallb (good_name letter number) (names ++ scan_func_names src)).
  2:{ split; [reflexivity|]. split; [intros H; contradiction H; reflexivity|reflexivity]. }
  destruct (parses (names ++ scan_func_names src) (p_left p) (p_right p) src) as [ts|] eqn:Pt.
  2:{ split; [reflexivity|]. split; [|discriminate]. intros _. apply said_head, fails_trees. right; eauto. }
  destruct (speaks_each kws (resolve_tmpl_d n) (resolve_node n) _ ts (fun t _ => speaks_tmpl kws n t)) as (l & D & C).
  destruct (D c Hk) as [E _]. rewrite E. cbn [fst snd]. split; [reflexivity|]. split; [|discriminate]. intros _.
  assert (Et : trees n = ts) by (unfold XtSpec.trees; rewrite W, Pt; reflexivity).
  eapply complete_ext; [|apply (complete_part (DFile n) _ l C)].
  - intros o d. split.
    + intros [(-> & ->)|(j & t & o' & H & -> & [(-> & ->)|L])].
      * apply FS_file.
      * eapply FS_template. rewrite Et. exact H.
      * eapply FS_inside; [rewrite Et; exact H|exact L].
    + intros [|j t H|j t o' d' H L]; [left; auto|right; rewrite Et in H; exists j, t..]; [exists []; auto|exists o'; auto].
  - intros o d (j & t & o' & _ & -> & _). discriminate.
Qed.
Lemma file_kws n c c' : c_kws c = kws -> resolve_file n c = FOk c' -> c_kws c' = kws.
Proof.
  intros Hk. unfold XtModel.resolve_file. destruct (w n) as [src|]; [|discriminate].
  destruct (forallb _ _); [|discriminate]. destruct (parses _ _ _ src) as [ts|]; [|discriminate]. intros E. injection E as <-.
  destruct (speaks_each kws (resolve_tmpl_d n) (resolve_node n) _ ts (fun t _ => speaks_tmpl kws n t)) as (l & D & _).
  exact (proj2 (D c Hk)).
Qed.
Lemma file_misnamed n c : resolve_file n c = FPanic <-> misnamed n.
Proof.
  unfold XtModel.resolve_file, XtDebugSpec.misnamed. split.
  - destruct (w n) as [src|] eqn:W; [|discriminate]. destruct (forallb (good_name letter number) (names ++ scan_func_names src)) eqn:G.
    { destruct (parses _ _ _ src); discriminate. }
    intros _. apply not_true_iff_false in G. rewrite forallb_forall in G.
    destruct (existsb (fun x => negb (good_name letter number x)) (names ++ scan_func_names src)) eqn:X.
    + apply existsb_exists in X as (x & I & N). exists src, x. split; [reflexivity|]. split; [exact I|]. apply negb_true_iff, N.
    + exfalso. apply G. intros x I. destruct (good_name letter number x) eqn:N; [reflexivity|].
      rewrite <- X. apply existsb_exists. exists x. rewrite N. auto.
  - intros (src & x & -> & I & G). destruct (forallb (good_name letter number) (names ++ scan_func_names src)) eqn:F; [|reflexivity].
    rewrite forallb_forall in F. rewrite (F x I) in G. discriminate.
Qed.
(** ** All files *)
Lemma files_speak files : forall failed c, c_kws c = kws -> fst (resolve_files_d files failed c) = resolve_files files failed c
  /\ (forall r, resolve_files files failed c = Some r -> (forall m, In m files -> ~ misnamed m)
        /\ exists ls, Forall2 file_log files ls /\ snd (resolve_files_d files failed c) = concat ls).
Proof.
  induction files as [|n files IH]; intros failed c Hk; cbn [XtDebugModel.resolve_files_d XtModel.resolve_files].
  - split; [reflexivity|]. intros r _. split; [intros m []|]. exists []. split; [constructor|reflexivity].
  - destruct (file_speaks n c Hk) as (E1 & L1 & L2). pose proof (file_misnamed n c) as Mi.
    destruct (resolve_file_d n c) as [r1 l1]. cbn [fst snd] in *. subst r1.
    destruct (resolve_file n c) as [c1| |] eqn:Rf.
    + destruct (IH failed c1 (file_kws n c c1 Hk Rf)) as (E & L). destruct (resolve_files_d files failed c1) as [x m]. cbn [fst snd] in *.
      split; [exact E|]. intros r Er. destruct (L r Er) as (Nm & ls & F & El). split.
      * intros k [<-|I]; [rewrite <- Mi; discriminate|exact (Nm k I)].
      * exists (l1 :: ls). split; [constructor; [apply L1; discriminate|exact F]|]. cbn [concat]. rewrite El. reflexivity.
    + destruct (IH true (say c (Failed n)) Hk) as (E & L). destruct (resolve_files_d files true (say c (Failed n))) as [x m]. cbn [fst snd] in *.
      split; [exact E|]. intros r Er. destruct (L r Er) as (Nm & ls & F & El). split.
      * intros k [<-|I]; [rewrite <- Mi; discriminate|exact (Nm k I)].
      * exists (l1 :: ls). split; [constructor; [apply L1; discriminate|exact F]|]. cbn [concat]. rewrite El. reflexivity.
    + split; [reflexivity|discriminate].
Qed.
Lemma files_erase files r l : resolve_files_d files false (new_ctx kws) = (Some r, l) -> resolve_files files false (new_ctx kws) = Some r
  /\ (forall m, In m files -> ~ misnamed m) /\ exists ls, Forall2 file_log files ls /\ l = concat ls.
Proof.
  intros H. destruct (files_speak files false (new_ctx kws) eq_refl) as (E & L). rewrite H in E, L. cbn [fst snd] in E, L.
  split; [auto|]. destruct (L r (eq_sym E)) as (Nm & ls & F & ->). eauto.
Qed.
Lemma files_speaks files r : resolve_files files false (new_ctx kws) = Some r -> exists l, resolve_files_d files false (new_ctx kws) = (Some r, l).
Proof.
  intros H. destruct (files_speak files false (new_ctx kws) eq_refl) as (E & _). destruct (resolve_files_d files false (new_ctx kws)) as [x l].
  cbn [fst] in E. exists l. congruence.
Qed.
(** ** What is collected *)
Lemma files_collect files : forall failed c l c' b, c_kws c = kws -> merges l c -> resolve_files files failed c = Some (c', b) ->
  exists es, collected parses p names w kws files es /\ merges (l ++ es) c'.
Proof.
  induction files as [|n files IH]; intros failed c l c' b Hk M; cbn [XtModel.resolve_files].
  - intros E; injection E as <- <-. exists []. split; [constructor|]. rewrite app_nil_r. exact M.
  - pose proof (file_cases parses letter number p names w kws n c l Hk M) as C. destruct (resolve_file n c) as [c1| |]; [| |discriminate].
    + destruct C as (NF & es & r & Me & W & E1 & M1 & K1). intros R.
      destruct (IH failed c1 (l ++ es) c' b K1 M1 R) as (es' & Co & M'). exists (es ++ es').
      split; [exact (CO_fine _ _ _ _ _ _ _ _ _ NF Me Co)|]. rewrite app_assoc. exact M'.
    + intros R. destruct (IH true (say c (Failed n)) l c' b Hk (merges_say l c n M) R) as (es' & Co & M'). exists es'.
      split; [exact (CO_fails _ _ _ _ _ _ _ _ C Co)|exact M'].
Qed.
Lemma has_key (l : list entry) k : (exists e, In e l /\ e_key e = k) <-> exists m, merged l k m.
Proof.
  split.
  - induction l as [|x l IH]; [intros (e & [] & _)|]. intros (e & I & K).
    assert (F : exists f, first_with (x :: l) k f).
    { clear IH. revert I. induction (x :: l) as [|y r IHr]; [intros []|]. intros I.
      destruct (beq_spec (e_key y) k) as [Ey|Ny]; [exists y, [], r; split; [reflexivity|]; split; [exact Ey|intros z []]|].
      destruct I as [->|I]; [contradiction|]. destruct (IHr I) as (f & a & b & -> & Ef & Hf).
      exists f, (y :: a), b. split; [reflexivity|]. split; [exact Ef|]. intros z [<-|Iz]; auto. }
    destruct F as (f & F). eexists. exists f. split; [exact F|reflexivity].
  - intros (m & e & (a & b & -> & K & _) & _). exists e. split; [apply in_or_app; right; left; reflexivity|exact K].
Qed.
Lemma merges_distinct es c : merges es c -> distinct es (length (c_entries c)).
Proof.
  intros M. exists (keys (c_entries c)). split; [exact (m_nodup _ _ M)|]. split; [apply map_length|].
  intros k. rewrite has_key. split.
  - intros I. destruct (mget k (c_entries c)) as [m|] eqn:G; [exists m; apply (m_entries _ _ M), G|].
    exfalso. revert G. apply in_map_iff in I as ((k', m) & <- & I). cbn [fst]. rewrite (in_mget _ _ _ (m_nodup _ _ M) I). discriminate.
  - intros (m & Hm). apply (m_entries _ _ M) in Hm. apply mget_in in Hm. apply in_map_iff. exists (k, m). auto.
Qed.
Lemma distinct_fun es n m : distinct es n -> distinct es m -> n = m.
Proof.
  intros (a & A1 & <- & A2) (b & B1 & <- & B2).
  apply Nat.le_antisymm; apply NoDup_incl_length; [exact A1| |exact B1|]; intros k I; [apply B2, A2, I|apply A2, B2, I].
Qed.
End Files.

(** ** The messages announced *)
Lemma literal_args x j args : arguments [[x]] j args -> args = [x].
Proof.
  intros A. apply arguments_iff in A as (cmd & E & ->). destruct j as [|[|j]]; try discriminate. injection E as <-. reflexivity.
Qed.
Lemma literal_inside inner o q s : inside inner o q -> literal (APipe inner) s -> forall j args n a, arguments q j args -> nth_error args n = Some a ->
  exists s', literal a s'.
Proof.
  intros I. revert s. induction I as [p|p j' args' n' inner o q A E I IH]; intros s L; inversion L as [|x s' Lx Ex]; subst.
  - intros j args n a Ar En. apply literal_args in Ar as ->. destruct n as [|[|n]]; try discriminate. injection En as <-. eauto.
  - apply literal_args in A as ->. destruct n' as [|[|n']]; try discriminate. injection E as ->. eauto.
Qed.
Lemma literal_unnamed a s n : literal a s -> named a n -> False.
Proof. intros L N. destruct N; inversion L. Qed.
Lemma inside_in_pipe p o q j args n a x : inside p o q -> arguments q j args -> nth_error args n = Some a -> named a x -> in_pipe p (o ++ [j; n]) args n.
Proof.
  intros I. induction I as [p|p j' args' n' inner o q A E I IH]; intros Ar En Na.
  - apply IP_here; [exact Ar|]. apply nth_error_Some. congruence.
  - cbn [app]. destruct A as [j2 cmd b s -> Ej Li Ec|cmd _ Ec]; [|eapply IP_paren; [exact Ec|exact E|exact (IH Ar En Na)]].
    destruct (Nat.lt_ge_cases n' (length cmd)) as [Ln|Ln].
    + eapply IP_paren; [exact Ec| |exact (IH Ar En Na)]. rewrite nth_error_app1 in E by exact Ln. exact E.
    + exfalso. rewrite nth_error_app2 in E by exact Ln. destruct (n' - length cmd)%nat as [|[|k]]; try discriminate. injection E as ->.
      destruct (literal_inside _ _ _ _ I Li _ _ _ _ Ar En) as (s' & L'). exact (literal_unnamed _ _ _ L' Na).
Qed.
Lemma in_pipe_inside p o args n : in_pipe p o args n -> exists o' q j, o = o' ++ [j; n] /\ inside p o' q /\ arguments q j args.
Proof.
  intros I. induction I as [p j args n A L|p j cmd i inner o args n Ec E I (o' & q & j' & -> & In' & Ar)].
  - exists [], p, j. split; [reflexivity|]. split; [apply IS_here|exact A].
  - exists (j :: i :: o'), q, j'. split; [reflexivity|]. split; [|exact Ar].
    eapply IS_paren; [apply arguments_iff; exists cmd; split; [exact Ec|reflexivity]| |exact In'].
    rewrite nth_error_app1 by (apply nth_error_Some; congruence). exact E.
Qed.
(** an announcement is a message *)
Lemma announced_message file kws t o name e : logged file kws t o (DOk name e) <-> exists k, name = k_name k /\ message file kws t o k e /\ gapless k.
Proof.
  split.
  - intros H. inversion H as [o1 line p o2 d N L E1 E2|]; subst. inversion L as [| | |o' q j args n a i k d I A En Na Ek V E3 E4]; subst.
    inversion V as [| | | | |e' G D E5]; subst. exists k. split; [reflexivity|]. split; [|exact G].
    exists o1, (o' ++ [j; n]), i, line, p, args, n. split; [rewrite <- app_assoc; reflexivity|]. split; [exact N|].
    split; [exact (inside_in_pipe _ _ _ _ _ _ _ _ I A En Na)|]. split; [exact Ek|]. split; [exists a; auto|exact D].
  - intros (k & -> & (o1 & o2 & i & line & p & args & n & -> & N & I & Ek & (a & En & Na) & D) & G).
    apply in_pipe_inside in I as (o' & q & j & -> & I & A). apply LG_pipe with (line := line) (p := p); [exact N|].
    rewrite <- app_assoc. cbn [app]. exact (IL_use _ _ _ _ o' q j args n a i k _ I A En Na Ek (V_ok _ _ _ _ e G D)).
Qed.
Lemma before_place a b : before a b -> place_before a b.
Proof. induction 1; [apply PB_head; assumption|apply PB_tail; assumption]. Qed.
Lemma announced_app a b : announced (a ++ b) = announced a ++ announced b.
Proof. apply flat_map_app. Qed.
Definition is_ok (x : list nat * dline) : bool := match snd x with DOk _ _ => true | _ => false end.
Lemma announced_filter pl : announced (map snd pl) = announced (map snd (filter is_ok pl)).
Proof.
  induction pl as [|[o d] pl IH]; [reflexivity|]. cbn [map filter announced flat_map is_ok snd]. unfold announced in IH. rewrite IH.
  destruct d; reflexivity.
Qed.
Lemma filter_sorted pl : StronglySorted shown_before pl -> StronglySorted shown_before (filter is_ok pl).
Proof.
  induction 1 as [|x pl S IH F]; cbn [filter]; [constructor|]. destruct (is_ok x); [|exact IH]. constructor; [exact IH|].
  rewrite Forall_forall in *. intros y I. apply filter_In in I as [I _]. auto.
Qed.
Definition kw_at (kws : list keyword) (o : list nat) : bytes := match nth_error kws (last o 0%nat) with Some k => k_name k | None => [] end.
Lemma message_kw file kws t o k e j : message file kws t o k e -> kw_at kws (j :: o) = k_name k.
Proof.
  intros (o1 & o2 & i & line & p & args & n & -> & _ & _ & Ek & _). unfold kw_at.
  rewrite app_assoc, app_comm_cons, last_last, Ek. reflexivity.
Qed.
Section Announced.
Variable parses : list bytes -> bytes -> bytes -> bytes -> option (list tnode).
Variable p : param.
Variable names : list bytes.
Variable w : fs.
Variable kws : list keyword.
Notation file_log := (file_log parses p names w kws).
Notation messages_of := (messages_of parses p names w kws).
Notation fails := (fails parses p names w).
Notation trees := (trees parses p names w).
Lemma file_announces n l es : file_log n l -> messages_of n es -> announced l = es.
Proof.
  intros (pl & -> & A1 & A2) (ml & -> & B1 & B2).
  assert (E : filter is_ok pl = map (fun x => (fst x, DOk (kw_at kws (fst x)) (snd x))) ml).
  { apply sorted_unique; [exact (filter_sorted _ A1)| |].
    - clear A1 A2 B2. induction ml as [|[o e] ml IH]; cbn [map fst] in *; [constructor|]. inversion B1 as [|? ? B2 B3]; subst. constructor; [exact (IH B2)|].
      rewrite Forall_forall in *. intros y I. apply in_map_iff in I as ((o', e') & <- & I). left. apply before_place, B3.
      apply in_map_iff. exists (o', e'). auto.
    - intros [o d]. rewrite filter_In, A2, in_map_iff. split.
      + intros [H K]. destruct d; try discriminate K. exists (o, e). cbn [fst snd].
        inversion H as [| |j t o' d' Ht L E1 E2]; subst. apply announced_message in L as (k & -> & M & G).
        split; [rewrite (message_kw _ _ _ _ _ _ j M); reflexivity|]. apply B2. exists j, t, o', k. auto.
      + intros ((o', e) & E & I). cbn [fst snd] in E. injection E as <- <-. apply B2 in I as (j & t & o2 & k & -> & Ht & M & G).
        split; [|reflexivity]. rewrite (message_kw _ _ _ _ _ _ j M). eapply FS_inside; [exact Ht|]. apply announced_message. eauto. }
  rewrite announced_filter, E, map_map. clear. induction ml as [|[o e] ml IH]; [reflexivity|]. cbn [map announced flat_map snd fst app] in *.
  unfold announced in IH. rewrite IH. reflexivity.
Qed.
Lemma files_announce files : forall ls es, Forall2 file_log files ls -> collected parses p names w kws files es -> announced (concat ls) = es.
Proof.
  induction files as [|n files IH]; intros ls es F C; inversion F as [|? l ? ls' Fl F']; subst; inversion C as [|? ? ? Fa C'|? ? ? ? Fi Me C']; subst; [reflexivity|..];
    cbn [concat]; rewrite announced_app, (IH ls' _ F' C').
  - assert (E : l = [DFile n]). { apply (complete_unique _ _ _ Fl). apply said_head, fails_trees, Fa. } subst l. reflexivity.
  - rewrite (file_announces n l e Fl Me). reflexivity.
Qed.
Lemma messages_fun n es es' : (exists l, file_log n l) -> messages_of n es -> messages_of n es' -> es = es'.
Proof. intros (l & F) M M'. rewrite <- (file_announces n l es F M). exact (file_announces n l es' F M'). Qed.
Lemma logs_fun files : forall ls ls', Forall2 file_log files ls -> Forall2 file_log files ls' -> ls = ls'.
Proof.
  induction files as [|n files IH]; intros ls ls' F F'; inversion F; inversion F'; subst; [reflexivity|]. f_equal; [|auto].
  eapply complete_unique; eassumption.
Qed.
End Announced.

(** ** Runs *)
Section Runs.
Variable isp : N -> bool.
Variable tr : bytes -> bytes.
Variable print : spec -> arg (list bytes) -> bytes.
Variable as_int : arg (list bytes) -> option Z.
Variable extra : list (arg (list bytes)) -> bytes.
Variable open_err read_err : bytes -> bytes.
Variable parse_err : list bytes -> bytes -> bytes -> bytes -> bytes.
Variable write_err : bytes -> bytes.
Variable close_err : bytes.
Variable globs : fs -> bytes -> option (list bytes).
Variable creatable : bytes -> bool.
Variable parses : list bytes -> bytes -> bytes -> bytes -> option (list tnode).
Variable letter number : N -> bool.
Variable written : bytes -> Z * bool.
Variable closes : bool.
Variable verbose : bytes -> bytes -> Prop.
Notation runs_e := (runs_e isp tr print as_int extra open_err read_err parse_err write_err close_err globs creatable parses letter number written closes).
Notation runs_d := (runs_d isp tr print as_int extra open_err read_err parse_err write_err close_err globs creatable parses letter number written closes verbose).
Notation run_log := (run_log globs creatable parses letter number).
Notation reports_text := (reports_text tr print as_int extra verbose).
Notation report_text_d := (report_text_d tr print as_int extra verbose).
Notation file_err := (file_err tr print as_int extra read_err parse_err).
Theorem runs_d_e now p w o w' l out err why : runs_d now p w o w' l out err why -> exists err', runs_e now p w o w' out err' why.
Proof.
  intros [why0 K|kws K T C|kws w1 K W G|kws w1 a n b c failed src bad ll er K W G nms Rf Wn I Bn Er|kws w1 files c n ll er K W G nms Rf F Er
         |kws w1 files c f text r taken ll er K W G nms Rf Er Mk Sv Wt oo].
  - eexists. apply E_keywords; exact K.
  - eexists. eapply E_open; eassumption.
  - eexists. eapply E_glob; eassumption.
  - apply files_erase in Rf as (Rf & _). eexists. eapply E_panic; eassumption.
  - apply files_erase in Rf as (Rf & _). eexists. eapply E_file; eassumption.
  - apply files_erase in Rf as (Rf & _). eexists. eapply E_write; eassumption.
Qed.
Lemma opened_as p w w1 : (to_file p = true /\ creatable (p_output p) = true /\ w1 = fs_set w (p_output p) [] \/ to_file p = false /\ w1 = w) ->
  w1 = opened p w /\ (to_file p = true -> creatable (p_output p) = true).
Proof. intros [(T & C & ->)|(T & ->)]; unfold opened; rewrite T; split; auto; discriminate. Qed.
Lemma kw_spelled str kws : parse_keywords_e isp tr print as_int extra str = inl kws -> spells str kws.
Proof. intros H. apply parse_keywords_iff. exact (kw_some _ _ _ _ _ _ _ H). Qed.
Theorem runs_d_log now p w o w' l out err why : runs_d now p w o w' l out err why -> run_log p w l.
Proof.
  intros [why0 K|kws K T C|kws w1 K W G|kws w1 a n b c failed src bad ll er K W G nms Rf Wn I Bn Er|kws w1 files c n ll er K W G nms Rf F Er
         |kws w1 files c f text r taken ll er K W G nms Rf Er Mk Sv Wt oo].
  - apply RL_keywords. intros kws Sp. apply parse_keywords_iff in Sp. apply kw_none in K. congruence.
  - apply RL_open; assumption.
  - apply opened_as in W as (-> & Cr). exact (RL_glob _ _ _ _ _ p w kws (kw_spelled _ _ K) Cr G).
  - apply opened_as in W as (-> & Cr). apply files_erase in Rf as (_ & Nm & ls & F & ->).
    apply (RL_misnamed _ _ _ _ _ p w kws a n b ls (kw_spelled _ _ K) Cr G Nm); [exists src, bad; auto|exact F].
  - apply opened_as in W as (-> & Cr). apply files_erase in Rf as (Rf & Nm & ls & Fl & ->).
    destruct (run_told _ _ _ _ _ _ _ _ _ _ Rf) as (_ & Bd). destruct (proj1 Bd eq_refl) as (m & I & Fm).
    exact (RL_failed _ _ _ _ _ p w kws files ls m (kw_spelled _ _ K) Cr G Nm I Fm Fl).
  - apply opened_as in W as (-> & Cr). apply files_erase in Rf as (Rf & Nm & ls & Fl & ->).
    destruct (run_told _ _ _ _ _ _ _ _ _ _ Rf) as (_ & Bd).
    destruct (files_collect _ _ _ _ _ _ _ _ _ _ [] _ _ eq_refl (merges_new kws) Rf) as (es & Co & M).
    apply (RL_done _ _ _ _ _ p w kws files ls es _ (kw_spelled _ _ K) Cr G Nm); [|exact Fl|exact Co|exact (merges_distinct _ _ M)].
    intros m I Fm. enough (false = true) by discriminate. apply Bd. eauto.
Qed.
Lemma split_same {X} (P : X -> Prop) a n b a' n' b' : a ++ n :: b = a' ++ n' :: b' -> (forall m, In m a -> ~ P m) -> P n ->
  (forall m, In m a' -> ~ P m) -> P n' -> a = a' /\ n = n'.
Proof.
  revert a'. induction a as [|x a IH]; intros [|y a'] E A N A' N'; cbn [app] in E; injection E as <- E.
  - auto.
  - destruct (A' _ (or_introl eq_refl) N).
  - destruct (A _ (or_introl eq_refl) N').
  - destruct (IH a' E) as [-> ->]; auto; intros m I; [apply A|apply A']; right; exact I.
Qed.
Theorem run_log_fun p w l l' : run_log p w l -> run_log p w l' -> l = l'.
Proof.
  assert (Sf : forall kws kws', spells (p_keyword p) kws -> spells (p_keyword p) kws' -> kws = kws').
  { intros kws kws' H H'. apply parse_keywords_iff in H, H'. congruence. }
  intros H H'.
  destruct H as [K|T C|kws K Cr G|kws a n b ls K Cr G Nm Mi F|kws files ls n K Cr G Nm I Fa F|kws files ls es c K Cr G Nm Fi F Co Di];
  destruct H' as [K'|T' C'|kws' K' Cr' G'|kws' a' n' b' ls' K' Cr' G' Nm' Mi' F'|kws' files' ls' n' K' Cr' G' Nm' I' Fa' F'|kws' files' ls' es' c' K' Cr' G' Nm' Fi' F' Co' Di'];
  try reflexivity; try (exfalso; eapply K; eassumption); try (exfalso; eapply K'; eassumption);
  try (rewrite Cr in C' by assumption; discriminate C'); try (rewrite Cr' in C by assumption; discriminate C);
  (assert (kws' = kws) by eauto; subst kws'); rewrite G in G'; try discriminate G'; injection G' as E.
  - destruct (split_same _ _ _ _ _ _ _ E Nm Mi Nm' Mi') as [<- <-]. rewrite E. rewrite (logs_fun _ _ _ _ _ _ _ _ F F'). reflexivity.
  - exfalso. subst files'. apply (Nm' n); [apply in_or_app; right; left; reflexivity|exact Mi].
  - exfalso. subst files'. apply (Nm' n); [apply in_or_app; right; left; reflexivity|exact Mi].
  - exfalso. subst files. apply (Nm n'); [apply in_or_app; right; left; reflexivity|exact Mi'].
  - subst files'. rewrite (logs_fun _ _ _ _ _ _ _ _ F F'). reflexivity.
  - exfalso. subst files'. exact (Fi' n I Fa).
  - exfalso. subst files. apply (Nm n'); [apply in_or_app; right; left; reflexivity|exact Mi'].
  - exfalso. subst files'. exact (Fi n' I' Fa').
  - subst files'. rewrite (logs_fun _ _ _ _ _ _ _ _ F F') in *.
    assert (es = es') by (rewrite <- (files_announce _ _ _ _ _ _ _ _ F' Co); exact (files_announce _ _ _ _ _ _ _ _ F' Co')). subst es'.
    rewrite (distinct_fun _ _ _ Di Di'). reflexivity.
Qed.
(** ** The notices *)
Lemma long_print m ts args : keeps tr m -> reads m ts -> Forall textual args -> length ts = S (length args) ->
  exists text, says tr m (map shown args) text /\ print_err print as_int extra (tr m) args = text ++ [NL].
Proof.
  intros K R T L. destruct (K ts R) as (ts' & R' & L').
  destruct (reads_snoc _ _ NL R') as (ts2 & R2 & L2 & F2); [discriminate|].
  exists (fill ts' (map shown args)). split; [exists ts'; split; [exact R'|]; split; [rewrite map_length; congruence|reflexivity]|].
  unfold print_err. rewrite (errorf_reads print as_int extra _ ts2 args R2 T) by congruence.
  apply F2. rewrite map_length. congruence.
Qed.
Lemma long_errorf m ts args : keeps tr m -> reads m ts -> Forall textual args -> length ts = S (length args) ->
  says tr m (map shown args) (errorf print as_int extra (tr m) args).
Proof.
  intros K R T L. destruct (K ts R) as (ts' & R' & L'). exists ts'. split; [exact R'|]. split; [rewrite map_length; congruence|].
  apply errorf_reads; [exact R'|exact T|congruence].
Qed.
Ltac no_percent := let H := fresh in vm_compute; intros H; repeat (destruct H as [H|H]; [discriminate|]); exact H.
Lemma reads_plus t : ~ In "%"%char t -> reads (t ++ B "%+v") [t; []].
Proof. intros N. apply (RD_hole t (B "+v") [] [[]] N); [right; right; left; reflexivity|]. apply RD_end. intros []. Qed.
Lemma reads_long_warning : reads (B "Warning: %+v") [B "Warning: "; []].
Proof. apply (reads_plus (B "Warning: ")). no_percent. Qed.
Lemma reads_long_run : reads (B "run error: %+v") [B "run error: "; []].
Proof. apply (reads_plus (B "run error: ")). no_percent. Qed.
Lemma reads_long_process : reads (B "failed to process file %v. error message: %+v") [B "failed to process file "; B ". error message: "; []].
Proof.
  apply (RD_hole (B "failed to process file ") (B "v") (B ". error message: %+v")); [no_percent|left; reflexivity|].
  apply (reads_plus (B ". error message: ")). no_percent.
Qed.
Notation long_notice := (fun p names w => long_notice p names w tr read_err parse_err verbose).
Hypothesis Kv : sound tr.
Hypothesis Kd : forall m, In m debug_frames -> keeps tr m.
Lemma report_long p names w r text : (forall n, r = Failed n -> fails parses p names w n) -> report_text_d (file_err p names w) r text -> long_notice p names w r text.
Proof.
  intros F. destruct r as [e m|n]; cbn [XtDebugModel.report_text_d]; intros (long & V & ->).
  - match type of V with verbose ?y _ => set (why := y) in * end.
    assert (Wy : says tr (B "msgid '%v' is used without plural and with plural." ++ NL :: B "Line    =%v" ++ NL :: B "Previous=%v")
      [e_id e; listed (e_cmts e); listed (e_cmts m)] why).
    { apply (says_errorf tr print as_int extra Kv _ _ [VStr (e_id e); VOther (e_cmts e); VOther (e_cmts m)] reads_msgid ltac:(among)); [repeat constructor|reflexivity]. }
    destruct (long_print _ _ [VStr long] (Kd _ ltac:(among)) reads_long_warning) as (text & Sy & E); [repeat constructor|reflexivity|].
    rewrite E. exact (LN_conflict _ _ _ _ _ _ _ e m why long text Wy V Sy).
  - assert (K : keeps tr (B "failed to process file %v. error message: %+v")) by (apply Kd; among).
    destruct (long_print _ _ [VStr n; VStr long] K reads_long_process) as (text & Sy & E); [repeat constructor|reflexivity|].
    rewrite E. exact (LN_failed _ _ _ _ _ _ _ n _ long text (file_explains tr print as_int extra Kv _ _ _ _ _ _ _ (F n eq_refl)) V Sy).
Qed.
Lemma reports_long p names w rs text : (forall n, In (Failed n) rs -> fails parses p names w n) -> reports_text (file_err p names w) rs text ->
  exists lines, Forall2 (long_notice p names w) rs lines /\ text = concat lines.
Proof.
  intros F R. induction R as [|r rs t ts H R IH].
  - exists []. split; [constructor|reflexivity].
  - destruct IH as (lines & L & ->); [intros n I; apply F; right; exact I|]. exists (t :: lines). split; [|reflexivity].
    constructor; [|exact L]. apply report_long; [|exact H]. intros n ->. apply F. left; reflexivity.
Qed.
Hypothesis total : forall s, exists long, verbose s long.
Lemma reports_exist why rs : exists text, reports_text why rs text.
Proof.
  induction rs as [|r rs (ts & IH)]; [exists []; constructor|].
  assert (H : exists t, report_text_d why r t).
  { destruct r as [e m|n]; cbn [XtDebugModel.report_text_d];
      match goal with |- exists _ _, verbose ?x _ /\ _ => destruct (total x) as (long & V) end; eexists _, long; (split; [exact V|reflexivity]). }
  destruct H as (t & H). exists (t ++ ts). constructor; assumption.
Qed.
Theorem runs_e_d now p w o w' out err why : runs_e now p w o w' out err why -> exists l err', runs_d now p w o w' l out err' why.
Proof.
  intros [why0 K|kws K T C|kws w1 K W G|kws w1 a n b c failed src bad K W G nms Rf Wn I Bn|kws w1 files c n K W G nms Rf F
         |kws w1 files c f text r taken K W G nms Rf Mk Sv Wt oo].
  - eexists _, _. apply D_keywords; exact K.
  - eexists _, _. eapply D_open; eassumption.
  - eexists _, _. eapply D_glob; eassumption.
  - apply files_speaks in Rf as (l & Rf). destruct (reports_exist (file_err p nms w1) (c_err c)) as (er & Er). eexists _, _. eapply D_panic; eassumption.
  - apply files_speaks in Rf as (l & Rf). destruct (reports_exist (file_err p nms w1) (c_err c)) as (er & Er). eexists _, _. eapply D_file; eassumption.
  - apply files_speaks in Rf as (l & Rf). destruct (reports_exist (file_err p nms w1) (c_err c)) as (er & Er). eexists _, _. eapply D_write; eassumption.
Qed.
End Runs.
