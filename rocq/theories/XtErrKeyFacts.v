(** The errors of keyword specifications: XtErrModel.parse_keywords_e against XtErrSpec.keyword_error. *)
From Coq Require Import Lia ZifyBool ZifyNat ZifyN Sorted.
From Verif Require Import GoStr GoStrFacts GoQuote GoMap GoMapFacts FileModel PoModel PoSpec BlankSpec BlankFacts
  XtModel XtSpec XtKeyFacts XtFacts XtMergeFacts XtRunFacts WriteModel MainModel XtErrModel XtErrSpec.
From Verif Require Import GoFmt FmtSpec GoFmtFacts FormatFacts XtErrFacts.
Local Open Scope Z_scope.

Lemma reads_one f t : reads f [t] -> f = t.
Proof. intros R. inversion R as [|t' v f' ts Ht Hv R' E1 E2]; subst; [reflexivity|]. inversion R'. Qed.
Ltac among := repeat (first [left; reflexivity|right]).
Lemma sound_id : sound (fun m => m).
Proof. split; intros m _ ts R; exists ts; auto. Qed.
Lemma trim_in c s : In c (trim_space s) -> In c s.
Proof. intros I. destruct (trims_trim s) as (a & b & E & _). rewrite E. apply in_or_app. right. apply in_or_app. left. exact I. Qed.
Lemma split_in c d q x : In x (split_byte d q) -> In c x -> In c q.
Proof.
  intros I J. rewrite <- (join_split d q). revert I. generalize (split_byte d q) as l. induction l as [|y l IH]; intros I; [destruct I|].
  destruct l as [|z l].
  - destruct I as [->|[]]. exact J.
  - change (join [d] (y :: z :: l)) with (y ++ [d] ++ join [d] (z :: l)). rewrite !in_app_iff.
    destruct I as [->|I]; [left; exact J|]. right; right. apply IH, I.
Qed.
Section Keywords.
Variable isp : N -> bool.
Variable tr : bytes -> bytes.
Variable print : spec -> arg (list bytes) -> bytes.
Variable as_int : arg (list bytes) -> option Z.
Variable extra : list (arg (list bytes)) -> bytes.
Notation errorf := (errorf print as_int extra).
Notation wrapf := (wrapf print as_int extra).
Notation tr_f := (tr_f tr print as_int extra).
Notation wrap_num := (wrap_num isp print as_int extra).
Notation parse_positions_e := (parse_positions_e isp tr print as_int extra).
Notation parse_keyword_e := (parse_keyword_e isp tr print as_int extra).
Notation parse_each_e := (parse_each_e isp tr print as_int extra).
Notation parse_keywords_e := (parse_keywords_e isp tr print as_int extra).

(** *** Without the texts of the errors *)
Definition erased {X Y} (r : X + Y) : option X := match r with inl x => Some x | inr _ => None end.
Lemma positions_erase msg name q : erased (parse_positions_e msg name q) = parse_positions name q.
Proof.
  unfold XtErrModel.parse_positions_e, parse_positions. set (xs := map _ _). clearbody xs.
  destruct xs as [|a [|b [|d [|]]]]; try reflexivity; rewrite ?parse_int_e_erase.
  - destruct (parse_int_e a); reflexivity.
  - destruct (has_suffix (B "c") a); rewrite ?parse_int_e_erase.
    + destruct (parse_int_e (removelast a)); [|reflexivity]. destruct (parse_int_e b); reflexivity.
    + destruct (parse_int_e a); [|reflexivity]. destruct (parse_int_e b); reflexivity.
  - destruct (has_suffix (B "c") a); rewrite ?parse_int_e_erase; [|reflexivity].
    destruct (parse_int_e (removelast a)); [|reflexivity]. destruct (parse_int_e b); [|reflexivity]. destruct (parse_int_e d); reflexivity.
Qed.
Lemma keyword_erase msg key : erased (parse_keyword_e msg key) = parse_keyword key.
Proof.
  unfold XtErrModel.parse_keyword_e, parse_keyword. destruct (split_byte ":" (trim_space key)) as [|n [|i [|]]]; try reflexivity; cbv zeta.
  - destruct (is_empty (trim_space n)); reflexivity.
  - destruct (is_empty (trim_space n)); [reflexivity|]. apply positions_erase.
Qed.
Lemma each_erase msg keys : erased (parse_each_e msg keys) = parse_each keys.
Proof.
  induction keys as [|key r IH]; [reflexivity|]. cbn [XtErrModel.parse_each_e parse_each]. rewrite <- (keyword_erase msg key), <- IH.
  destruct (parse_keyword_e msg key); [|reflexivity]. cbn [erased]. destruct (parse_each_e msg r); reflexivity.
Qed.
Theorem keywords_erase str : erased (parse_keywords_e str) = parse_keywords str.
Proof. apply each_erase. Qed.

(** *** With them *)
Hypothesis So : sound tr.
Lemma tr_bare m : ~ In "%"%char m -> fits tr m -> says tr m [] (tr m) /\ ~ In "%"%char (tr m).
Proof.
  intros H Ft. destruct (Ft [m] (RD_end m H)) as (ts & R & L).
  destruct ts as [|t [|]]; [inversion R| |cbn [length] in L; lia].
  pose proof (reads_one _ _ R) as E. rewrite E in R |- *. split.
  - exists [t]. rewrite E. auto.
  - exact (reads_no _ _ R t (or_introl eq_refl)).
Qed.
Lemma tr_hole a v x : ~ In "%"%char a -> In v [B "v"; B "s"; B "+v"] -> fits tr (a ++ B "%" ++ v) ->
  exists ts, reads (tr (a ++ B "%" ++ v)) ts /\ (length ts <= 2)%nat /\ tr_f (a ++ B "%" ++ v) [VStr x] = fill ts [x]
    /\ (~ In "%"%char x -> ~ In "%"%char (tr_f (a ++ B "%" ++ v) [VStr x])).
Proof.
  intros Ha Hv Ft. assert (R0 : reads (a ++ B "%" ++ v) [a; []]).
  { rewrite <- (app_nil_r v). apply RD_hole; [exact Ha|exact Hv|apply RD_end; intros []]. }
  destruct (Ft _ R0) as (ts & R & L). cbn [length] in L. exists ts. split; [exact R|]. split; [exact L|].
  rewrite (tr_f_reads print as_int extra tr _ ts [VStr x] R); [|repeat constructor|discriminate|cbn [length]; lia|exact L].
  cbn [map shown]. split; [reflexivity|].
  intros Hx. apply fill_no; [exact (reads_no _ _ R)|]. intros y [<-|[]]. exact Hx.
Qed.
Lemma says_hole a x : ~ In "%"%char a -> keeps tr (a ++ B "%s") -> says tr (a ++ B "%s") [x] (tr_f (a ++ B "%s") [VStr x]).
Proof.
  intros Ha Kp. assert (R0 : reads (a ++ B "%s") [a; []]).
  { apply (RD_hole a (B "s") []); [exact Ha|right; left; reflexivity|apply RD_end; intros []]. }
  destruct (Kp _ R0) as (ts & R & L). exists ts. split; [exact R|]. split; [exact L|].
  apply (tr_f_reads print as_int extra tr _ ts [VStr x] R); [repeat constructor|discriminate|cbn [length]; lia|rewrite L; apply le_n].
Qed.
Lemma keeps_fits m : keeps tr m -> fits tr m.
Proof. intros K ts R. destruct (K ts R) as (ts' & R' & L). exists ts'. split; [exact R'|]. rewrite L. apply le_n. Qed.
Lemma wrapf_plain cause m : ~ In "%"%char m -> wrapf cause m [] = because m cause.
Proof. intros H. unfold XtErrModel.wrapf, because. rewrite errorf_plain by exact H. destruct m; reflexivity. Qed.
Lemma app_no (c : ascii) a b : ~ In c a -> ~ In c b -> ~ In c (a ++ b).
Proof. intros H1 H2 I. apply in_app_or in I as [I|I]; auto. Qed.
Lemma says_tells m xs text : says tr m xs text -> tells tr m xs text.
Proof. intros (ts & R & L & E). exists ts. rewrite L. auto. Qed.
(** what is said about wrong positions *)
Definition reported (msg : bytes) (m : bytes) (args : list bytes) (cause : option bytes) (text : bytes) : Prop :=
  exists detail, tells tr m args detail /\
    match cause with
    | Some s => exists why, number_error isp s why /\ text = because (msg ++ detail) why
    | None => text = msg ++ detail
    end.
Lemma num_err_spec s e : parse_int_e s = inr e -> number_error isp s (num_text isp s e) /\ no_number s.
Proof.
  intros E. pose proof (parse_int_e_spec s) as H. rewrite E in H. unfold number_error, num_text. destruct e; destruct H as [H1 H2]; split; auto.
Qed.
Lemma int_e_some s z : parse_int_e s = inl z -> numeral s z.
Proof. intros E. pose proof (parse_int_e_spec s) as H. rewrite E in H. exact H. Qed.
Lemma reported_num msg a v s e : ~ In "%"%char msg -> ~ In "%"%char a -> In v [B "v"; B "s"; B "+v"] -> In (a ++ B "%" ++ v) details -> ~ In "%"%char s -> parse_int_e s = inr e ->
  reported msg (a ++ B "%" ++ v) [s] (Some s) (wrap_num msg (tr_f (a ++ B "%" ++ v) [VStr s]) s e).
Proof.
  intros Hm Ha Hv Hd Hs E. destruct (tr_hole a v s Ha Hv (proj2 So _ Hd)) as (ts & S1 & L & Et & S2). exists (tr_f (a ++ B "%" ++ v) [VStr s]).
  split; [exists ts; auto|].
  exists (num_text isp s e). split; [apply num_err_spec, E|]. unfold XtErrModel.wrap_num. apply wrapf_plain, app_no; auto.
Qed.
Ltac nope := let I := fresh in intros I; cbn in I; repeat (destruct I as [I|I]; [discriminate|]); exact I.
Lemma positions_wrong msg name q text : ~ In "%"%char msg -> ~ In "%"%char q -> parse_positions_e msg name q = inr text ->
  exists m args cause, wrong_index (map trim_space (split_byte "," q)) m args cause /\ reported msg m args cause text.
Proof.
  intros Hm Hq.
  assert (Hx : forall x, In x (map trim_space (split_byte "," q)) -> ~ In "%"%char x).
  { intros x I J. apply in_map_iff in I as (y & <- & I). apply trim_in in J. exact (Hq (split_in _ _ _ _ I J)). }
  assert (Ne : map trim_space (split_byte "," q) <> []).
  { intros E. apply map_eq_nil in E. exact (split_byte_nonempty _ _ E). }
  unfold XtErrModel.parse_positions_e. revert Hx Ne. generalize (map trim_space (split_byte "," q)) as xs. intros xs Hx Ne.
  assert (V : In (B "v") [B "v"; B "s"; B "+v"]) by (left; reflexivity).
  destruct xs as [|a [|b [|d [|x xs]]]]; [congruence| | | |].
  - assert (Ha : ~ In "%"%char a) by (apply Hx; left; reflexivity).
    destruct (parse_int_e a) as [i|e] eqn:A; [discriminate|]. intros E; injection E as <-.
    do 3 eexists. split; [apply WI_one, (num_err_spec a e A)|].
    destruct (tr_bare (B "msg id index is not a number")) as [S1 S2]; [nope|apply (proj2 So); among|].
    exists (tr (B "msg id index is not a number")). split; [exact (says_tells _ _ _ S1)|]. exists (num_text isp a e). split; [apply num_err_spec, A|].
    unfold XtErrModel.wrap_num. apply wrapf_plain, app_no; assumption.
  - assert (Ha : ~ In "%"%char a) by (apply Hx; left; reflexivity).
    assert (Hb : ~ In "%"%char b) by (apply Hx; right; left; reflexivity).
    destruct (has_suffix (B "c") a) eqn:Sf.
    + apply suffix_c in Sf as (c & ->).
      assert (Hc : ~ In "%"%char c) by (intros I; apply Ha, in_or_app; left; exact I).
      cbv zeta. change (B "c") with ["c"%char] at 1 2 3. rewrite removelast_last.
      destruct (parse_int_e c) as [ci|e] eqn:Cc.
      * destruct (parse_int_e b) as [i|e] eqn:Bb; [discriminate|]. intros E; injection E as <-.
        do 3 eexists. split; [apply (WI_ctxt_id c b ci); [apply int_e_some, Cc|apply (num_err_spec b e Bb)]|].
        apply (reported_num msg (B "msg id index is not a number: ") (B "v") b e Hm); [nope|exact V|among|exact Hb|exact Bb].
      * intros E; injection E as <-. do 3 eexists. split; [apply (WI_ctxt c b), (num_err_spec c e Cc)|].
        apply (reported_num msg (B "context index is not a number: ") (B "v") c e Hm); [nope|exact V|among|exact Hc|exact Cc].
    + destruct (parse_int_e a) as [i|e] eqn:A.
      * destruct (parse_int_e b) as [j|e] eqn:Bb; [discriminate|]. intros E; injection E as <-.
        do 3 eexists. split; [apply (WI_plural a b i); [apply int_e_some, A|apply (num_err_spec b e Bb)]|].
        apply (reported_num msg (B "msg plural index is not a number: ") (B "v") b e Hm); [nope|exact V|among|exact Hb|exact Bb].
      * intros E; injection E as <-. do 3 eexists. split.
        { apply (WI_id a b); [|apply (num_err_spec a e A)]. intros y ->. rewrite (proj2 (suffix_c _)) in Sf by eauto. discriminate. }
        apply (reported_num msg (B "msg id index is not a number: ") (B "v") a e Hm); [nope|exact V|among|exact Ha|exact A].
  - assert (Ha : ~ In "%"%char a) by (apply Hx; left; reflexivity).
    assert (Hb : ~ In "%"%char b) by (apply Hx; right; left; reflexivity).
    assert (Hd : ~ In "%"%char d) by (apply Hx; right; right; left; reflexivity).
    destruct (has_suffix (B "c") a) eqn:Sf.
    + apply suffix_c in Sf as (c & ->).
      assert (Hc : ~ In "%"%char c) by (intros I; apply Ha, in_or_app; left; exact I).
      cbv zeta. change (B "c") with ["c"%char] at 1 2 3. rewrite removelast_last.
      destruct (parse_int_e c) as [ci|e] eqn:Cc.
      * destruct (parse_int_e b) as [i|e] eqn:Bb.
        -- destruct (parse_int_e d) as [j|e] eqn:D; [discriminate|]. intros E; injection E as <-.
           do 3 eexists. split; [apply (WI_all_plural c b d ci i); [apply int_e_some, Cc|apply int_e_some, Bb|apply (num_err_spec d e D)]|].
           apply (reported_num msg (B "msg id index is not a number: ") (B "v") d e Hm); [nope|exact V|among|exact Hd|exact D].
        -- intros E; injection E as <-.
           do 3 eexists. split; [apply (WI_all_id c b d ci); [apply int_e_some, Cc|apply (num_err_spec b e Bb)]|].
           apply (reported_num msg (B "msg id index is not a number: ") (B "v") b e Hm); [nope|exact V|among|exact Hb|exact Bb].
      * intros E; injection E as <-. do 3 eexists. split; [apply (WI_all_ctxt c b d), (num_err_spec c e Cc)|].
        apply (reported_num msg (B "msg context index is not a number: ") (B "v") c e Hm); [nope|exact V|among|exact Hc|exact Cc].
    + intros E; injection E as <-. do 3 eexists. split.
      { apply (WI_suffix a b d). intros y ->. rewrite (proj2 (suffix_c _)) in Sf by eauto. discriminate. }
      destruct (tr_hole (B "context index must end with 'c': ") (B "v") a) as (ts & S1 & L & Et & S2); [nope|exact V|apply (proj2 So); among|].
      exists (tr_f (B "context index must end with 'c': %v") [VStr a]). split; [exists ts; auto|].
      apply errorf_plain, app_no; auto.
  - intros E; injection E as <-. do 3 eexists. split; [apply WI_many|].
    destruct (tr_bare (B "too much keyword index")) as [S1 S2]; [nope|apply (proj2 So); among|].
    exists (tr (B "too much keyword index")). split; [exact (says_tells _ _ _ S1)|]. apply errorf_plain, app_no; assumption.
Qed.
(** the outer trimming of a keyword is redundant *)
Lemma keyword_e_untrimmed msg key : parse_keyword_e msg key =
  match split_byte ":" key with
  | [n] => let name := trim_space n in if is_empty name then inr (errorf msg []) else inl (kw name 0 1 0)
  | [n; index] => let name := trim_space n in if is_empty name then inr (errorf msg []) else parse_positions_e msg name index
  | _ => inr (errorf msg [])
  end.
Proof.
  unfold XtErrModel.parse_keyword_e. destruct (trims_trim key) as (a & b & E & Ha & Hb & _).
  set (x := trim_space key) in *. clearbody x. subst key.
  destruct (in_dec Ascii.ascii_dec ":"%char x) as [I|I].
  - destruct (in_split _ x I) as (p & q & -> & Hp).
    replace (a ++ (p ++ ":"%char :: q) ++ b) with ((a ++ p) ++ ":"%char :: (q ++ b)) by (rewrite <- !app_assoc; reflexivity).
    rewrite !split_byte_app.
    2:{ rewrite in_app_iff. intros [J|J]; [exact (blanks_no _ _ colon_ok Ha J)|auto]. }
    2: assumption.
    destruct (in_dec Ascii.ascii_dec ":"%char q) as [J|J].
    + destruct (in_split _ q J) as (p' & q' & -> & Hp'). rewrite <- app_assoc. cbn [app].
      rewrite !split_byte_app by assumption.
      destruct (split_byte ":" q') eqn:E1; [exfalso; exact (split_byte_nonempty _ _ E1)|].
      destruct (split_byte ":" (q' ++ b)) eqn:E2; [exfalso; exact (split_byte_nonempty _ _ E2)|]. reflexivity.
    + rewrite (split_byte_no _ q J), split_byte_no.
      2:{ rewrite in_app_iff. intros [K|K]; [auto|exact (blanks_no _ _ colon_ok Hb K)]. }
      rewrite (trim_left_around a p Ha). cbv zeta. destruct (is_empty (trim_space p)); [reflexivity|].
      unfold XtErrModel.parse_positions_e. rewrite (split_right_around _ q b comma_ok Hb). reflexivity.
  - rewrite (split_byte_no _ x I), split_byte_no.
    2:{ rewrite !in_app_iff. intros [K|[K|K]]; [exact (blanks_no _ _ colon_ok Ha K)|auto|exact (blanks_no _ _ colon_ok Hb K)]. }
    rewrite trim_around by assumption. reflexivity.
Qed.
Lemma keyword_wrong msg key text : ~ In "%"%char msg -> ~ In "%"%char key -> parse_keyword_e msg key = inr text ->
  exists d cause, wrong key d cause /\
    match d with Some (m, xs) => reported msg m xs cause text | None => cause = None /\ text = msg end.
Proof.
  intros Hm Hk. rewrite keyword_e_untrimmed.
  destruct (in_dec Ascii.ascii_dec ":"%char key) as [I|I].
  - destruct (in_split _ key I) as (p & q & -> & Hp). rewrite split_byte_app by assumption.
    destruct (in_dec Ascii.ascii_dec ":"%char q) as [J|J].
    + destruct (in_split _ q J) as (p' & q' & -> & Hp'). rewrite split_byte_app by assumption.
      destruct (split_byte ":" q') eqn:E1; [exfalso; exact (split_byte_nonempty _ _ E1)|].
      intros E; injection E as <-. exists None, None. split; [exact (WR_colons p p' q')|].
      split; [reflexivity|]. apply errorf_plain, Hm.
    + rewrite (split_byte_no _ q J). cbv zeta. destruct (is_empty (trim_space p)) eqn:Ep.
      * intros E; injection E as <-. exists None, None. split.
        { apply (WR_name p q); [|exact Hp]. apply trim_nil. destruct (trim_space p); [reflexivity|discriminate]. }
        split; [reflexivity|]. apply errorf_plain, Hm.
      * intros E. assert (Hq : ~ In "%"%char q) by (intros X; apply Hk, in_or_app; right; right; exact X).
        destruct (positions_wrong msg _ q text Hm Hq E) as (m & args & cause & W & Rp).
        exists (Some (m, args)), cause. split; [|exact Rp].
        rewrite <- (join_split "," q) at 1.
        apply (WR_index p (trim_space p) (split_byte "," q) (map trim_space (split_byte "," q)) m args cause).
        -- apply trims_trim.
        -- intros Z. rewrite Z in Ep. discriminate.
        -- exact Hp.
        -- apply trims_map. reflexivity.
        -- intros t Ht. split; [intros X; exact (J (split_in _ _ _ _ Ht X))|apply (split_byte_pieces _ _ _ Ht)].
        -- exact W.
  - rewrite (split_byte_no _ key I). cbv zeta. destruct (is_empty (trim_space key)) eqn:Ek; [|discriminate].
    intros E; injection E as <-. exists None, None. split.
    + apply WR_blank, trim_nil. destruct (trim_space key); [reflexivity|discriminate].
    + split; [reflexivity|]. apply errorf_plain, Hm.
Qed.
Lemma each_wrong msg keys text : ~ In "%"%char msg -> (forall k, In k keys -> ~ In "%"%char k) -> parse_each_e msg keys = inr text ->
  exists ts t us ks d cause, keys = ts ++ t :: us /\ Forall2 spells1 ts ks /\ wrong t d cause /\
    match d with Some (m, xs) => reported msg m xs cause text | None => cause = None /\ text = msg end.
Proof.
  intros Hm. induction keys as [|key r IH]; intros Hk; cbn [XtErrModel.parse_each_e]; [discriminate|].
  destruct (parse_keyword_e msg key) as [k|e] eqn:K.
  - destruct (parse_each_e msg r) as [l|e] eqn:L; [discriminate|]. intros E; injection E as ->.
    destruct (IH (fun x Hx => Hk x (or_intror Hx)) eq_refl) as (ts & t & us & ks & d & cause & -> & F & H).
    exists (key :: ts), t, us, (k :: ks), d, cause. split; [reflexivity|]. split; [|exact H]. constructor; [|exact F].
    apply parse_keyword_iff. rewrite <- (keyword_erase msg key), K. reflexivity.
  - intros E; injection E as ->. destruct (keyword_wrong msg key text Hm (Hk key (or_introl eq_refl)) K) as (d & cause & W & H).
    exists [], key, r, [], d, cause. split; [reflexivity|]. split; [constructor|]. auto.
Qed.
Theorem keywords_wrong str text : ~ In "%"%char str -> parse_keywords_e str = inr text -> keyword_error isp tr str text.
Proof.
  intros Hs E. unfold XtErrModel.parse_keywords_e in E.
  assert (Kp : keeps tr (B "invalid keywords: %s")) by (apply (proj1 So); left; reflexivity).
  destruct (tr_hole (B "invalid keywords: ") (B "s") str) as (hs & R1 & L & Et & S2); [nope|right; left; reflexivity|exact (keeps_fits _ Kp)|].
  change (B "invalid keywords: " ++ B "%" ++ B "s") with (B "invalid keywords: %s") in R1, Et, S2.
  assert (S1 : says tr (B "invalid keywords: %s") [str] (tr_f (B "invalid keywords: %s") [VStr str])).
  { apply (says_hole (B "invalid keywords: ")); [nope|exact Kp]. }
  destruct (each_wrong _ _ _ (S2 Hs) ltac:(intros k I J; exact (Hs (split_in "%"%char ";"%char str k I J))) E)
    as (ts & t & us & ks & d & cause & Ek & F & W & H).
  assert (Ej : str = join (B ";") (ts ++ t :: us)) by (rewrite <- Ek; symmetry; apply (join_split ";")).
  assert (No : forall x, In x (ts ++ t :: us) -> ~ In ";"%char x) by (rewrite <- Ek; intros x; apply split_byte_pieces).
  destruct d as [[m xs]|].
  - destruct H as (detail & D & H). exists ts, t, us, ks, (Some (m, xs)), cause. do 2 eexists.
    split; [exact Ej|]. split; [exact No|]. split; [exact F|]. split; [exact W|]. split; [exact S1|]. split; [exact D|exact H].
  - destruct H as [-> ->]. exists ts, t, us, ks, None, None. do 2 eexists.
    split; [exact Ej|]. split; [exact No|]. split; [exact F|]. split; [exact W|]. split; [exact S1|]. split; [reflexivity|].
    symmetry; apply app_nil_r.
Qed.
End Keywords.
