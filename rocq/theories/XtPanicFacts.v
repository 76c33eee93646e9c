(** Exactly when a run of xtemplate panics. *)
From Coq Require Import Lia ZifyBool ZifyNat ZifyN Permutation.
From Verif Require Import GoStr GoStrFacts GoMap GoMapFacts FileModel FileFacts PoModel PoSpec PoCatalogFacts
  BlankSpec BlankFacts XtModel XtSpec XtKeyFacts XtFacts XtMergeFacts XtRunFacts.
Local Open Scope nat_scope.

Section Panic.
Variable isp : N -> bool.
Variable globs : fs -> bytes -> option (list bytes).
Variable creatable : bytes -> bool.
Variable parses : list bytes -> bytes -> bytes -> bytes -> option (list tnode).
Variable letter number : N -> bool.
Hypothesis letter_error : letter RuneError = false.
Hypothesis number_error : number RuneError = false.
Notation good_name := (good_name letter number).
Notation runs := (runs isp globs creatable parses letter number).
Lemma rune_ok c t r w : decode_rune (c :: t) = (r, w) -> (r =? 95)%N || is_letter letter r || is_number number r = true ->
  valid_rune r = true /\ c :: t = encode_rune r ++ skipn w (c :: t) /\ length (encode_rune r) = w.
Proof using letter_error number_error.
  clear isp globs creatable parses. intros D H. apply (decode_encode (c :: t) r w); [discriminate|exact D|].
  intros [-> _]. unfold is_letter, is_number in H. change (RuneError <? 128)%N with false in H. cbn iota in H.
  rewrite letter_error, number_error in H. discriminate.
Qed.
Lemma rest_go : forall n s, good_rest letter number n s = true -> exists rs, s = concat (map encode_rune rs)
  /\ (forall x, In x rs -> valid_rune x = true) /\ forall x, In x rs -> go_letter letter x \/ go_number number x.
Proof using letter_error number_error.
  clear isp globs creatable parses. induction n as [|n IH]; intros [|c t] H; try discriminate;
    try (exists []; split; [reflexivity|split; intros x []]).
  cbn [good_rest] in H. destruct (decode_rune (c :: t)) as [r w] eqn:D. apply andb_prop in H as [H1 H2].
  destruct (rune_ok c t r w D H1) as (V & E & _). destruct (IH _ H2) as (rs & Er & Vs & Gs). exists (r :: rs).
  split; [cbn [map concat]; rewrite <- Er; exact E|]. split.
  - intros x [<-|Hx]; [exact V|apply Vs, Hx].
  - intros x [<-|Hx]; [|apply Gs, Hx]. apply Bool.orb_true_iff in H1 as [H1|H1]; [left; apply (go_letter_iff letter number)|right; apply (go_number_iff letter number)]; exact H1.
Qed.
Lemma good_iff s : good_name s = true <-> go_identifier letter number s.
Proof using letter_error number_error.
  clear isp globs creatable parses. split; [|apply good_go].
  unfold XtModel.good_name. destruct s as [|c t]; [discriminate|]. destruct (decode_rune (c :: t)) as [r w] eqn:D. intros H.
  apply andb_prop in H as [H1 H2].
  destruct (rune_ok c t r w D) as (V & E & _); [rewrite H1; reflexivity|].
  destruct (rest_go _ _ H2) as (rs & Er & Vs & Gs). exists r, rs. split; [cbn [map concat]; rewrite <- Er; exact E|]. split.
  - intros x [<-|Hx]; [exact V|apply Vs, Hx].
  - split; [apply (go_letter_iff letter number), H1|exact Gs].
Qed.
Lemma files_panic p names w files : (exists n, In n names /\ good_name n = false) -> forall b c,
  (resolve_files parses letter number p names w files b c = None <-> exists n src, In n files /\ w n = Some src).
Proof using.
  intros (x & Ix & Bx). induction files as [|n files IH]; intros b c; cbn [XtModel.resolve_files].
  - split; [discriminate|intros (n & src & [] & _)].
  - unfold resolve_file. destruct (w n) as [src|] eqn:W.
    + replace (forallb good_name (names ++ scan_func_names src)) with false.
      * split; [intros _; exists n, src; split; [left; reflexivity|exact W]|reflexivity].
      * symmetry. apply Bool.not_true_is_false. intros H. rewrite forallb_forall in H.
        rewrite (H x) in Bx; [discriminate|]. apply in_or_app; left; exact Ix.
    + rewrite IH. split; intros (m & src & I & E); exists m, src; (split; [|exact E]).
      * right; exact I.
      * destruct I as [<-|I]; [congruence|exact I].
Qed.
(** [names_of]: the names of keywords and functions *)
Theorem runs_panic now p w : (exists w' out, runs now p w RPanic w' out) <->
  exists kws files x n src, spells (p_keyword p) kws /\ (is_file (p_output p) -> creatable (p_output p) = true)
    /\ globs (opened p w) (p_input p) = Some files /\ In n files /\ opened p w n = Some src
    /\ ((exists k, In k kws /\ x = k_name k) \/ lists_name (p_function p) x) /\ ~ go_identifier letter number x.
Proof using letter_error number_error.
  split.
  - intros (w' & out & R). inversion R as [| | |kws w1 files K O G F| |]; subst.
    assert (Ow : w' = opened p w) by (apply opened_iff with (1 := O)). subst w'.
    set (names := map k_name kws ++ function_names (p_function p)) in *.
    destruct (forallb good_name names) eqn:A.
    { exfalso. revert F. apply files_good. apply forallb_forall, A. }
    assert (X : exists x, In x names /\ good_name x = false).
    { clear - A. induction names as [|y l IH]; [discriminate|]. cbn [forallb] in A. destruct (good_name y) eqn:Ey.
      - destruct IH as (x & I & Q); [exact A|]. exists x. split; [right; exact I|exact Q].
      - exists y. split; [left; reflexivity|exact Ey]. }
    destruct (proj1 (files_panic p names _ files X _ _) F) as (n & src & In_ & Wn). destruct X as (x & Ix & Bx).
    exists kws, files, x, n, src. split; [apply parse_keywords_iff, K|]. split.
    { intros Hf. apply to_file_iff in Hf. destruct O as [(_ & O & _)|(O & _)]; congruence. }
    split; [exact G|]. split; [exact In_|]. split; [exact Wn|]. split.
    + unfold names in Ix. apply in_app_or in Ix as [Ix|Ix].
      * left. apply in_map_iff in Ix as (k & <- & Ik). eauto.
      * right. apply function_names_iff, Ix.
    + intros Gx. apply good_iff in Gx. congruence.
  - intros (kws & files & x & n & src & K & C & G & In_ & Wn & Hx & Bx). apply parse_keywords_iff in K.
    exists (opened p w), []. eapply R_panic; [exact K| |exact G|].
    + unfold opened. destruct (to_file p) eqn:T; [left|right; auto]. split; [reflexivity|]. split; [|reflexivity]. apply C, to_file_iff, T.
    + apply files_panic; [|eauto]. exists x. split.
      * apply in_or_app. destruct Hx as [(k & Ik & ->)|Hx]; [left; apply in_map, Ik|right; apply function_names_iff, Hx].
      * destruct (good_name x) eqn:E; [|reflexivity]. exfalso. apply Bx, good_iff, E.
Qed.
(** the outcome is determined *)
Lemma runs_outcome now p w o w' out o2 w2 out2 : runs now p w o w' out -> runs now p w o2 w2 out2 -> o = o2.
Proof using.
  intros R R2. destruct R; inversion R2; subst; try reflexivity; try congruence;
    repeat match goal with
    | X : _ \/ to_file p = false /\ _ |- _ => first [pose proof (opened_iff creatable _ _ _ X); destruct X as [(? & ? & ?)|(? & ?)]]
    end; subst; try congruence.
Qed.
End Panic.
