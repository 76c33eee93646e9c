(** The log of debug mode: XtDebugModel against XtDebugSpec and XtModel. *)
From Coq Require Import Lia ZifyBool ZifyNat ZifyN Sorted List.
From Verif Require Import GoStr GoStrFacts GoMap GoMapFacts FileModel PoModel XtModel XtSpec XtFacts XtDebugModel XtDebugSpec.
Import ListNotations.
Local Open Scope Z_scope.

(** ** What is said about a use of a keyword *)
Lemma needed_count k : needed k = arg_count k.
Proof.
  unfold needed, arg_count. cbn [filter]. rewrite !gtb_ltb.
  destruct (Z.ltb_spec 0 (k_ctxt k)), (Z.ltb_spec 0 (k_id2 k)); cbn [nodup andb];
    repeat match goal with |- context [in_dec ?d ?x ?l] => let J := fresh in destruct (in_dec d x l) as [J|J]; cbn [In] in J end;
    cbn [length]; destruct (Z.eqb_spec (k_ctxt k) (k_id k)), (Z.eqb_spec (k_id2 k) (k_id k)), (Z.eqb_spec (k_id2 k) (k_ctxt k)); cbn [negb andb]; lia.
Qed.
Lemma literals_d_spec n : forall i args, match literals_d i n args with
  | inl texts => literals n args = Some texts
  | inr j => (i <= j < i + n)%nat /\ (forall m, (m < j - i)%nat -> exists a s, nth_error args m = Some a /\ literal a s)
             /\ (forall a, nth_error args (j - i) = Some a -> forall s, ~ literal a s) /\ literals n args = None
  end.
Proof.
  induction n as [|n IH]; intros i args; cbn [literals_d literals]; [reflexivity|].
  destruct args as [|a r].
  - split; [lia|]. split; [lia|]. split; [|reflexivity]. intros a. destruct (i - i)%nat; discriminate.
  - destruct (string_literal a) as [s|] eqn:L.
    + specialize (IH (S i) r). destruct (literals_d (S i) n r) as [l|j]; [rewrite IH; reflexivity|].
      destruct IH as (H1 & H2 & H3 & ->). split; [lia|]. split; [|split; [|reflexivity]].
      * intros [|m] Hm; [exists a, s; split; [reflexivity|apply literal_iff, L]|]. apply H2. lia.
      * replace (j - i)%nat with (S (j - S i)) by lia. cbn [nth_error]. exact H3.
    + split; [lia|]. split; [lia|]. split; [|reflexivity]. rewrite Nat.sub_diag. cbn [nth_error]. intros x E; injection E as <-.
      intros s Ls. apply literal_iff in Ls. congruence.
Qed.
Lemma texts_literals n m args : texts_to args n (n + m) <-> exists texts, literals m (skipn (S n) args) = Some texts.
Proof.
  split.
  - intros T. assert (Y : forall i, (i < m)%nat -> exists a s, nth_error (skipn (S n) args) i = Some a /\ string_literal a = Some s).
    { intros i Hi. destruct (T (S n + i)%nat) as (a & s & E & L); [lia|]. exists a, s. rewrite nth_error_skipn. split; [exact E|apply literal_iff, L]. }
    clear T. revert Y. generalize (skipn (S n) args) as r. induction m as [|m IH]; intros r Y; cbn [literals]; [eauto|].
    destruct (Y 0%nat) as (a & s & E & L); [lia|]. destruct r as [|a' r]; [discriminate|]. cbn [nth_error] in E. injection E as ->.
    rewrite L. destruct (IH r) as (t & ->); [|eauto]. intros i Hi. apply (Y (S i)). lia.
  - intros (texts & L) i Hi. apply literals_spec in L as [L1 L2].
    destruct (nth_error texts (i - S n)) as [s|] eqn:E; [|apply nth_error_None in E; lia].
    destruct (L2 _ _ E) as (a & A & La). exists a, s. rewrite nth_error_skipn in A. replace (S n + (i - S n))%nat with i in A by lia. auto.
Qed.
Lemma texts_length args n m : texts_to args n m -> (n < m)%nat -> (m < length args)%nat.
Proof. intros T H. destruct (T m) as (a & s & E & _); [lia|]. apply nth_error_Some. congruence. Qed.
Lemma needed_pos k : (0 < needed k)%nat.
Proof. rewrite needed_count. unfold arg_count. lia. Qed.
Lemma ok_texts line k args n e : gapless k -> describes line k args n e ->
  texts_to args n (n + needed k) /\ within k (k_ctxt k) /\ 0 < k_id k /\ within k (k_id k) /\ within k (k_id2 k).
Proof.
  intros G D. split; [apply texts_literals; rewrite needed_count; exact (describes_literals _ _ _ _ _ G D)|].
  assert (Hi : 0 < k_id k) by exact (proj1 (d_id _ _ _ _ _ D)).
  pose proof (proj1 (arg_count_spec k Hi) G) as A. unfold within. rewrite needed_count. unfold declared in A.
  repeat split; [|lia| |].
  - destruct (Z.lt_ge_cases 0 (k_ctxt k)); [apply A; auto|lia].
  - apply A; auto.
  - destruct (Z.lt_ge_cases 0 (k_id2 k)); [apply A; auto|lia].
Qed.
Lemma verdict_fun line k args n d d' : verdict line k args n d -> verdict line k args n d' -> d = d'.
Proof.
  pose proof (needed_pos k) as NP.
  assert (F : forall P : Prop, (length args <= n + needed k)%nat -> texts_to args n (n + needed k) -> P)
    by (intros P H T; apply texts_length in T; lia).
  assert (N : forall (P : Prop) i a, (n < i <= n + needed k)%nat -> nth_error args i = Some a -> (forall s, ~ literal a s) -> texts_to args n (n + needed k) -> P).
  { intros P i a Hi Ea La T. destruct (T i Hi) as (b & s & Eb & Lb). rewrite Ea in Eb. injection Eb as <-. destruct (La s Lb). }
  intros V W. destruct V as [H|i a H Hi T Ea La|T H|T C H|T C I W1 H|e G D];
    destruct W as [H'|i' a' H' Hi' T' Ea' La'|T' H'|T' C' H'|T' C' I' W1' H'|e' G' D']; try reflexivity; try lia;
    try (eapply F; eassumption); try (eapply N; eassumption); try tauto;
    try (pose proof (ok_texts _ _ _ _ _ G D) as (T1 & O1 & O2 & O3 & O4));
    try (pose proof (ok_texts _ _ _ _ _ G' D') as (T1' & O1' & O2' & O3' & O4')); try tauto;
    try (eapply F; eassumption); try (eapply N; eassumption).
  - f_equal. destruct (Nat.lt_trichotomy i i') as [L|[L|L]]; [|exact L|].
    + destruct (T' i) as (b & s & Eb & Lb); [lia|]. rewrite Ea in Eb. injection Eb as <-. destruct (La s Lb).
    + destruct (T i') as (b & s & Eb & Lb); [lia|]. rewrite Ea' in Eb. injection Eb as <-. destruct (La' s Lb).
  - f_equal. destruct (describes_literals _ _ _ _ _ G D) as (texts & L).
    pose proof (proj2 (extract_spec line k n args texts e L) (conj G D)) as X.
    pose proof (proj2 (extract_spec line k n args texts e' L) (conj G' D')) as X'. congruence.
Qed.

(** ** Complete logs *)
Lemma place_irrefl a : ~ place_before a a.
Proof. induction a as [|i a IH]; intros H; inversion H; subst; [lia|auto]. Qed.
Lemma place_asym a : forall b, place_before a b -> ~ place_before b a.
Proof.
  induction a as [|i a IH]; intros [|j b] H K; inversion H; subst; inversion K; subst; try lia; try (apply (IH b); assumption).
Qed.
Lemma shown_asym x y : shown_before x y -> ~ shown_before y x.
Proof.
  intros [H|(E & A & l & D)] [K|(E' & A' & l' & D')].
  - exact (place_asym _ _ H K).
  - rewrite E' in H. exact (place_irrefl _ H).
  - rewrite E in K. exact (place_irrefl _ K).
  - congruence.
Qed.
Lemma sorted_unique (l : list (list nat * dline)) : forall m, StronglySorted shown_before l -> StronglySorted shown_before m ->
  (forall x, In x l <-> In x m) -> l = m.
Proof.
  induction l as [|x l IH]; intros [|y m] L M E; [reflexivity|destruct (proj2 (E y) (or_introl eq_refl))|destruct (proj1 (E x) (or_introl eq_refl))|].
  inversion L as [|? ? L1 L2]; inversion M as [|? ? M1 M2]; subst. rewrite Forall_forall in L2, M2.
  assert (X : x = y).
  { destruct (proj1 (E x) (or_introl eq_refl)) as [<-|I]; [reflexivity|]. destruct (proj2 (E y) (or_introl eq_refl)) as [<-|J]; [reflexivity|].
    destruct (shown_asym _ _ (L2 _ J) (M2 _ I)). }
  subst y. f_equal. apply IH; [assumption|assumption|]. intros z. split; intros I.
  - destruct (proj1 (E z) (or_intror I)) as [<-|J]; [|exact J]. destruct (shown_asym _ _ (L2 _ I) (L2 _ I)).
  - destruct (proj2 (E z) (or_intror I)) as [<-|J]; [|exact J]. destruct (shown_asym _ _ (M2 _ I) (M2 _ I)).
Qed.
Lemma complete_unique P l m : complete P l -> complete P m -> l = m.
Proof.
  intros (a & -> & A1 & A2) (b & -> & B1 & B2). f_equal. apply sorted_unique; [assumption|assumption|].
  intros [o d]. rewrite A2, B2. reflexivity.
Qed.
Lemma complete_ext P Q l : (forall o d, P o d <-> Q o d) -> complete P l -> complete Q l.
Proof. intros H (pl & E & S1 & I). exists pl. split; [exact E|]. split; [exact S1|]. intros o d. rewrite I. apply H. Qed.
Lemma complete_nil : complete (fun _ _ => False) [].
Proof. exists []. split; [reflexivity|]. split; [constructor|]. intros o d. split; [intros []|intros []]. Qed.
Lemma complete_one d : complete (fun o d' => o = [] /\ d' = d) [d].
Proof.
  exists [([], d)]. split; [reflexivity|]. split; [repeat constructor|]. intros o d'. cbn [In].
  split; [intros [E|[]]; injection E as <- <-; auto|intros [-> ->]; auto].
Qed.
Lemma complete_part d P l : complete P l -> (forall o d', P o d' -> o = [] -> d = DArg /\ exists z, d' = DPipe z) ->
  complete (fun o d' => o = [] /\ d' = d \/ P o d') (d :: l).
Proof.
  intros (pl & -> & S1 & I) H. exists (([], d) :: pl). split; [reflexivity|]. split.
  - constructor; [exact S1|]. apply Forall_forall. intros [o d'] J. apply I in J. destruct o as [|i o].
    + right. split; [reflexivity|]. destruct (H _ _ J eq_refl) as (-> & E). split; [reflexivity|exact E].
    + left. apply PB_part.
  - intros o d'. cbn [In]. rewrite I. split; (intros [E|J]; [left|right; exact J]).
    + injection E as <- <-. auto.
    + destruct E as [-> ->]. reflexivity.
Qed.
Lemma complete_cons i P l Q m : complete P l -> complete Q m -> (forall o d, Q o d -> exists j o', o = j :: o' /\ (i < j)%nat) ->
  complete (fun o d => (exists o', o = i :: o' /\ P o' d) \/ Q o d) (l ++ m).
Proof.
  intros (a & -> & A1 & A2) (b & -> & B1 & B2) H.
  exists (map (fun x => (i :: fst x, snd x)) a ++ b). split; [|split].
  - rewrite map_app, map_map. reflexivity.
  - assert (H' : forall x, In x b -> exists j o', fst x = j :: o' /\ (i < j)%nat) by (intros [o d] J; apply B2 in J; exact (H _ _ J)).
    clear A2 B2 H. induction A1 as [|x a A1 IH F]; cbn [map app]; [exact B1|]. constructor; [exact IH|].
    apply Forall_app. split.
    + apply Forall_map. eapply Forall_impl; [|exact F]. intros y [Hy|(E & Hy)]; [left; apply PB_tail, Hy|right]. cbn [fst snd]. rewrite E. auto.
    + apply Forall_forall. intros y Hy. destruct (H' y Hy) as (j & o' & E & L). left. rewrite E. apply PB_head, L.
  - intros o d. rewrite in_app_iff, B2, in_map_iff. split.
    + intros [((o', d') & E & J)|J]; [left|right; exact J]. cbn [fst snd] in E. injection E as <- <-. exists o'. split; [reflexivity|]. apply A2, J.
    + intros [(o' & -> & J)|J]; [left|right; exact J]. exists (o', d). split; [reflexivity|]. apply A2, J.
Qed.

(** ** Functions that print: what they do and what they say *)
Section Says.
Variable kws : list keyword.
Definition speaks (s : step) (f : ctx -> ctx) (P : list nat -> dline -> Prop) : Prop :=
  exists l, (forall c, c_kws c = kws -> s c = (f c, l) /\ c_kws (f c) = kws) /\ complete P l.
Lemma speaks_ext s f P s' f' P' : speaks s f P -> (forall c, c_kws c = kws -> s' c = s c) -> (forall c, c_kws c = kws -> f' c = f c) ->
  (forall o d, P' o d <-> P o d) -> speaks s' f' P'.
Proof.
  intros (l & D & C) Es Ef E. exists l. split.
  - intros c Hc. rewrite (Es c Hc), (Ef c Hc). exact (D c Hc).
  - eapply complete_ext; [|exact C]. intros o d. symmetry. apply E.
Qed.
Lemma speaks_nop : speaks nop (fun c => c) (fun _ _ => False).
Proof. exists []. split; [intros c Hc; split; [reflexivity|exact Hc]|exact complete_nil]. Qed.
Lemma speaks_log d : speaks (log d) (fun c => c) (fun o d' => o = [] /\ d' = d).
Proof. exists [d]. split; [intros c Hc; split; [reflexivity|exact Hc]|apply complete_one]. Qed.
Lemma speaks_ok d e : speaks (andthen (log d) (act (fun c => ctx_add c e))) (fun c => ctx_add c e) (fun o d' => o = [] /\ d' = d).
Proof. exists [d]. split; [intros c Hc; split; [reflexivity|rewrite ctx_add_kws; exact Hc]|apply complete_one]. Qed.
Lemma speaks_part d s f P : speaks s f P -> (forall o d', P o d' -> o = [] -> d = DArg /\ exists z, d' = DPipe z) ->
  speaks (andthen (log d) s) f (fun o d' => o = [] /\ d' = d \/ P o d').
Proof.
  intros (l & D & C) H. exists (d :: l). split; [|exact (complete_part d P l C H)].
  intros c Hc. destruct (D c Hc) as [E K]. unfold andthen, log. rewrite E. split; [reflexivity|exact K].
Qed.
Lemma speaks_cons i s f P s' f' Q : speaks s f P -> speaks s' f' Q -> (forall o d, Q o d -> exists j o', o = j :: o' /\ (i < j)%nat) ->
  speaks (andthen s s') (fun c => f' (f c)) (fun o d => (exists o', o = i :: o' /\ P o' d) \/ Q o d).
Proof.
  intros (l & D & C) (l' & D' & C') H. exists (l ++ l'). split; [|exact (complete_cons i P l Q l' C C' H)].
  intros c Hc. destruct (D c Hc) as [E K]. destruct (D' (f c) K) as [E' K']. unfold andthen. rewrite E, E'. split; [reflexivity|exact K'].
Qed.
(** a loop, each element with its index *)
Definition loop_d {X} (g : nat -> X -> step) : nat -> list X -> step :=
  fix loop (i : nat) (l : list X) : step := match l with [] => nop | x :: r => andthen (g i x) (loop (S i) r) end.
Definition loop_p {X} (g : nat -> X -> ctx -> ctx) : nat -> list X -> ctx -> ctx :=
  fix loop (i : nat) (l : list X) (c : ctx) : ctx := match l with [] => c | x :: r => loop (S i) r (g i x c) end.
Lemma speaks_list {X} (g : nat -> X -> step) (f : nat -> X -> ctx -> ctx) (P : nat -> X -> list nat -> dline -> Prop) (xs : list X) :
  forall b, (forall i x, nth_error xs i = Some x -> speaks (g (b + i)%nat x) (f (b + i)%nat x) (P (b + i)%nat x)) ->
  speaks (loop_d g b xs) (loop_p f b xs)
    (fun o d => exists i x o', nth_error xs i = Some x /\ o = (b + i)%nat :: o' /\ P (b + i)%nat x o' d).
Proof.
  induction xs as [|x xs IH]; intros b H.
  - eapply speaks_ext; [exact speaks_nop|reflexivity|reflexivity|]. intros o d. split; [|intros []].
    intros ([|i] & x & o' & E & _); discriminate.
  - assert (H0 : speaks (g b x) (f b x) (P b x)).
    { specialize (H 0%nat x eq_refl). replace (b + 0)%nat with b in H by lia. exact H. }
    assert (IH' := IH (S b)). specialize (IH' ltac:(intros i y E; specialize (H (S i) y E); replace (S b + i)%nat with (b + S i)%nat by lia; exact H)).
    eapply speaks_ext; [apply (speaks_cons b _ _ _ _ _ _ H0 IH')|reflexivity|reflexivity|].
    + intros o d (i & y & o' & _ & -> & _). exists (S b + i)%nat, o'. split; [reflexivity|lia].
    + intros o d. split.
      * intros ([|i] & y & o' & E & -> & J).
        -- left. cbn [nth_error] in E. injection E as ->. replace (b + 0)%nat with b in * by lia. eauto.
        -- right. exists i, y, o'. replace (b + S i)%nat with (S b + i)%nat in * by lia. auto.
      * intros [(o' & -> & J)|(i & y & o' & E & -> & J)].
        -- exists 0%nat, x, o'. replace (b + 0)%nat with b by lia. auto.
        -- exists (S i), y, o'. replace (b + S i)%nat with (S b + i)%nat by lia. auto.
Qed.
Lemma each_loop {X} (g : X -> step) xs : forall b c, each g xs c = loop_d (fun _ => g) b xs c.
Proof.
  induction xs as [|x xs IH]; intros b c; [reflexivity|]. cbn [each loop_d]. unfold andthen. destruct (g x c) as [c1 l1].
  fold (each g). rewrite (IH (S b) c1). reflexivity.
Qed.
Lemma fold_loop {X} (f : X -> ctx -> ctx) xs : forall b c, fold_left (fun c x => f x c) xs c = loop_p (fun _ => f) b xs c.
Proof. induction xs as [|x xs IH]; intros b c; [reflexivity|]. cbn [fold_left loop_p]. apply (IH (S b)). Qed.
Lemma speaks_each {X} (g : X -> step) (f : X -> ctx -> ctx) (P : X -> list nat -> dline -> Prop) (xs : list X) :
  (forall x, In x xs -> speaks (g x) (f x) (P x)) ->
  speaks (each g xs) (fun c => fold_left (fun c x => f x c) xs c)
    (fun o d => exists i x o', nth_error xs i = Some x /\ o = i :: o' /\ P x o' d).
Proof.
  intros H. eapply speaks_ext; [apply (speaks_list (fun _ => g) (fun _ => f) (fun _ => P) xs 0%nat)| | |].
  - intros i x E. apply H. exact (nth_error_In _ _ E).
  - intros c _. apply each_loop.
  - intros c _. apply fold_loop.
  - reflexivity.
Qed.
(** keywords at one name *)
Lemma speaks_filter_one line name n args k : speaks (filter_one_d line name n args k) (fun c => filter_one line name n args c k)
  (fun o d => o = [] /\ k_name k = name /\ verdict line k args n d).
Proof.
  unfold filter_one_d, filter_one. destruct (beq_spec (k_name k) name) as [<-|E].
  2: { eapply speaks_ext; [exact speaks_nop|reflexivity|reflexivity|]. intros o d. split; [tauto|intros []]. }
  assert (U : forall d, verdict line k args n d -> forall (o : list nat) d', (o = [] /\ k_name k = k_name k /\ verdict line k args n d') <-> o = [] /\ d' = d).
  { intros d V o d'. split; [intros (-> & _ & V'); split; [reflexivity|exact (verdict_fun _ _ _ _ _ _ V' V)]|intros [-> ->]; auto]. }
  destruct (Nat.leb_spec (length args) (arg_count k + n)) as [Hl|Hl].
  { eapply speaks_ext; [exact (speaks_log (DFew (k_name k)))|reflexivity| |].
    - intros c _. destruct (literals (arg_count k) (skipn (S n) args)) as [texts|] eqn:L; [|reflexivity].
      exfalso. assert (T : texts_to args n (n + arg_count k)) by (apply texts_literals; eauto). apply texts_length in T; [lia|]. unfold arg_count. lia.
    - apply U. apply V_few. rewrite needed_count. lia. }
  pose proof (literals_d_spec (arg_count k) (S n) (skipn (S n) args)) as L.
  destruct (literals_d (S n) (arg_count k) (skipn (S n) args)) as [texts|j].
  - rewrite L. assert (T : texts_to args n (n + needed k)) by (rewrite needed_count; apply texts_literals; eauto).
    pose proof (fun p s => text_at_count n args k texts p s L) as TA.
    assert (PT : forall p, (exists s, pos_text texts p = Some s) <-> 0 < p /\ within k p).
    { intros p. unfold within. rewrite needed_count. split.
      - intros (s & E). apply TA in E as [E1 E2]. split; [exact (proj1 E2)|exact E1].
      - intros [Hp W]. destruct (T (n + Z.to_nat p)%nat) as (a & s & Ea & La); [rewrite needed_count; lia|]. exists s. apply TA. split; [exact W|].
        split; [exact Hp|]. exists a. auto. }
    pose proof (extract_spec line k n args texts) as X. unfold extract_d. unfold extract in X |- *. rewrite !gtb_ltb in *.
    destruct (if 0 <? k_ctxt k then pos_text texts (k_ctxt k) else Some []) as [cx|] eqn:EC.
    + assert (WC : within k (k_ctxt k)).
      { destruct (Z.ltb_spec 0 (k_ctxt k)) as [Hc|Hc]; [apply PT; eauto|unfold within; lia]. }
      destruct (pos_text texts (k_id k)) as [i|] eqn:EI.
      * assert (WI : 0 < k_id k /\ within k (k_id k)) by (apply PT; eauto). destruct WI as [HI WI].
        destruct (if 0 <? k_id2 k then pos_text texts (k_id2 k) else Some []) as [i2|] eqn:EP.
        -- cbv zeta in *.
           match goal with |- speaks (andthen (log (DOk _ ?e)) _) _ _ => set (e0 := e) in * end.
           eapply speaks_ext; [exact (speaks_ok (DOk (k_name k) e0) e0)|reflexivity|reflexivity|].
           apply U. apply V_ok; apply (X e0 L); reflexivity.
        -- eapply speaks_ext; [exact (speaks_log (DNoPlural (k_name k)))|reflexivity|reflexivity|].
           apply U. apply V_no_plural; auto. intros W. destruct (Z.ltb_spec 0 (k_id2 k)) as [Hp|Hp]; [|discriminate].
           destruct (proj2 (PT (k_id2 k)) (conj Hp W)) as (s & Es). congruence.
      * eapply speaks_ext; [exact (speaks_log (DNoId (k_name k)))|reflexivity|reflexivity|].
        apply U. apply V_no_id; auto. intros W. destruct (proj2 (PT (k_id k)) W) as (s & Es). congruence.
    + eapply speaks_ext; [exact (speaks_log (DNoCtxt (k_name k)))|reflexivity|reflexivity|].
      apply U. apply V_no_ctxt; auto. intros W. destruct (Z.ltb_spec 0 (k_ctxt k)) as [Hp|Hp]; [|discriminate].
      destruct (proj2 (PT (k_ctxt k)) (conj Hp W)) as (s & Es). congruence.
  - destruct L as (L1 & L2 & L3 & ->).
    eapply speaks_ext; [exact (speaks_log (DNoString (k_name k) j))|reflexivity|reflexivity|].
    apply U. destruct (nth_error args j) as [a|] eqn:Ea; [|apply nth_error_None in Ea; lia].
    apply (V_no_string line k args n j a); [rewrite needed_count; lia|rewrite needed_count; lia| |exact Ea|].
    + intros i Hi. destruct (L2 (i - S n)%nat) as (b & s & Eb & Lb); [lia|]. rewrite nth_error_skipn in Eb.
      replace (S n + (i - S n))%nat with i in Eb by lia. eauto.
    + apply L3. rewrite nth_error_skipn. replace (S n + (j - S n))%nat with j by lia. exact Ea.
Qed.
Definition said line name args n (o : list nat) (d : dline) : Prop :=
  exists i k, o = [i] /\ nth_error kws i = Some k /\ k_name k = name /\ verdict line k args n d.
Lemma speaks_filter_kw line name n args : speaks (filter_kw_d line name n args) (filter_kw line name n args) (said line name args n).
Proof.
  eapply speaks_ext; [apply (speaks_each (filter_one_d line name n args) (fun k c => filter_one line name n args c k)
    (fun k o d => o = [] /\ k_name k = name /\ verdict line k args n d) kws)| | |].
  - intros k _. apply speaks_filter_one.
  - intros c Hc. unfold filter_kw_d. rewrite Hc. reflexivity.
  - intros c Hc. unfold filter_kw. rewrite Hc. reflexivity.
  - intros o d. unfold said. split.
    + intros (i & k & -> & E & H). exists i, k, []. tauto.
    + intros (i & k & o' & E & -> & -> & H). exists i, k. tauto.
Qed.
Lemma speaks_filter_id line ids n args : speaks (filter_id_d line ids n args) (filter_id line ids n args)
  (fun o d => exists name, last_id ids = Some name /\ said line name args n o d).
Proof.
  unfold filter_id_d, filter_id. destruct (last_id ids) as [name|].
  - eapply speaks_ext; [apply (speaks_filter_kw line name n args)|reflexivity|reflexivity|].
    intros o d. split; [|eauto]. intros (m & E & H). injection E as ->. exact H.
  - eapply speaks_ext; [exact speaks_nop|reflexivity|reflexivity|]. intros o d. split; [|intros []]. intros (m & E & _). discriminate.
Qed.

(** ** Pipelines *)
Lemma andthen_ext a a' b b' c : a c = a' c -> (forall c, b c = b' c) -> andthen a b c = andthen a' b' c.
Proof. intros E F. unfold andthen. rewrite E. destruct (a' c) as [c1 l1]. rewrite F. reflexivity. Qed.
Lemma andthen_assoc a b d c : andthen (andthen a b) d c = andthen a (andthen b d) c.
Proof. unfold andthen. destruct (a c) as [c1 l1]. destruct (b c1) as [c2 l2]. destruct (d c2) as [c3 l3]. rewrite app_assoc. reflexivity. Qed.
Lemma andthen_nop a c : andthen a nop c = a c.
Proof. unfold andthen, nop. destruct (a c) as [c1 l1]. rewrite app_nil_r. reflexivity. Qed.
Lemma nop_andthen a c : andthen nop a c = a c.
Proof. unfold andthen, nop. destruct (a c) as [c1 l1]. reflexivity. Qed.
Lemma loop_d_ext {X} (g g' : nat -> X -> step) xs : forall b c, (forall i x c, nth_error xs i = Some x -> g (b + i)%nat x c = g' (b + i)%nat x c) ->
  loop_d g b xs c = loop_d g' b xs c.
Proof.
  induction xs as [|x xs IH]; intros b c H; [reflexivity|]. cbn [loop_d]. apply andthen_ext.
  - specialize (H 0%nat x c eq_refl). replace (b + 0)%nat with b in H by lia. exact H.
  - intros c'. apply IH. intros i y c2 E. specialize (H (S i) y c2 E). replace (S b + i)%nat with (b + S i)%nat by lia. exact H.
Qed.
Lemma args_loop_d_loop g xs : forall b c, args_loop_d g b xs c = loop_d (fun i x => andthen (log DArg) (g i x)) b xs c.
Proof.
  induction xs as [|x xs IH]; intros b c; [reflexivity|]. cbn [args_loop_d loop_d]. rewrite andthen_assoc.
  apply andthen_ext; [reflexivity|]. intros c'. apply andthen_ext; [reflexivity|]. intros c2. apply (IH (S b)).
Qed.
Lemma args_loop_d_app g xs ys : forall b c, args_loop_d g b (xs ++ ys) c = andthen (args_loop_d g b xs) (args_loop_d g (b + length xs) ys) c.
Proof.
  induction xs as [|x xs IH]; intros b c; cbn [app].
  - cbn [length]. rewrite Nat.add_0_r. symmetry. apply nop_andthen.
  - cbn [args_loop_d length]. rewrite andthen_assoc. apply andthen_ext; [reflexivity|]. intros c1. rewrite andthen_assoc.
    apply andthen_ext; [reflexivity|]. intros c2. replace (b + S (length xs))%nat with (S b + length xs)%nat by lia. apply (IH (S b)).
Qed.
Lemma cmds_loop_d_index line g p c : cmds_loop_d line g [] (fun _ _ => nop) p c =
  loop_d (fun j cmd => andthen (log (DCmd line)) (args_loop_d (g (cmd ++ piped_arg (prev_of None p j))) 0 (cmd ++ piped_arg (prev_of None p j)))) 0 p c.
Proof.
  enough (H : forall l q visit c, (forall full i c, visit full i c = args_loop_d (g full) i (piped_arg (prev_of None (q ++ l) (length q))) c) ->
    cmds_loop_d line g (piped_arg (prev_of None (q ++ l) (length q))) visit l c =
    loop_d (fun j cmd => andthen (log (DCmd line)) (args_loop_d (g (cmd ++ piped_arg (prev_of None (q ++ l) j))) 0 (cmd ++ piped_arg (prev_of None (q ++ l) j)))) (length q) l c).
  { apply (H p [] (fun _ _ => nop) c). reflexivity. }
  clear p c. induction l as [|cmd l IH]; intros q visit c V; [reflexivity|]. cbn [cmds_loop_d loop_d]. rewrite andthen_assoc.
  apply andthen_ext; [reflexivity|]. intros c1. rewrite <- andthen_assoc. apply andthen_ext.
  - rewrite args_loop_d_app. apply andthen_ext; [reflexivity|]. intros c2. cbn [Nat.add]. apply V.
  - intros c2. specialize (IH (q ++ [cmd])). rewrite <- app_assoc in IH. cbn [app] in IH.
    assert (N : prev_of None (q ++ cmd :: l) (length (q ++ [cmd])) = Some cmd).
    { rewrite app_length. cbn [length]. replace (length q + 1)%nat with (S (length q)) by lia. cbn [prev_of].
      rewrite nth_error_app2 by lia. rewrite Nat.sub_diag. reflexivity. }
    rewrite N in IH. rewrite app_length in IH. cbn [length] in IH. replace (length q + 1)%nat with (S (length q)) in IH by lia.
    apply IH. intros full i c3. cbn [piped_arg]. destruct cmd as [|a [|b r]]; [reflexivity| |reflexivity].
    destruct (string_literal a); [|reflexivity]. cbn [args_loop_d]. apply andthen_ext; [reflexivity|]. intros c4. symmetry. apply andthen_nop.
Qed.
Definition arg_said file line args n (a : anode) (o : list nat) (d : dline) : Prop :=
  (exists name, named a name /\ said (ref file line) name args n o d) \/ (exists q, a = APipe q /\ in_log file kws line q o d).
Lemma in_log_iff file line p o d : in_log file kws line p o d <->
  (o = [] /\ d = DPipe line) \/ exists j cmd o', nth_error p j = Some cmd /\ o = j :: o' /\
    ((o' = [] /\ d = DCmd line) \/ exists n a o2, nth_error (cmd ++ piped_arg (prev_of None p j)) n = Some a /\ o' = n :: o2 /\
       ((o2 = [] /\ d = DArg) \/ arg_said file line (cmd ++ piped_arg (prev_of None p j)) n a o2 d)).
Proof.
  split.
  - assert (DOWN : forall j args n inner o2 d, arguments p j args -> nth_error args n = Some (APipe inner) -> in_log file kws line inner o2 d ->
      exists j' cmd o', nth_error p j' = Some cmd /\ j :: n :: o2 = j' :: o' /\
        ((o' = [] /\ d = DCmd line) \/ exists n a o2, nth_error (cmd ++ piped_arg (prev_of None p j')) n = Some a /\ o' = n :: o2 /\
          ((o2 = [] /\ d = DArg) \/ arg_said file line (cmd ++ piped_arg (prev_of None p j')) n a o2 d))).
    { clear o d. intros j args n inner o2 d A E H. apply arguments_iff in A as (cmd & C & ->). exists j, cmd, (n :: o2). split; [exact C|]. split; [reflexivity|].
      right. exists n, (APipe inner), o2. split; [exact E|]. split; [reflexivity|]. right. right. exists inner. auto. }
    intros H. destruct H as [o q I|o q j I Hj|o q j args n I A Hn|o q j args n a i k d I A En Na Ek V].
    + inversion I; subst; [left; auto|right]. eapply DOWN; eauto. eapply IL_pipe; eauto.
    + inversion I; subst; right; cbn [app].
      * destruct (nth_error q j) as [cmd|] eqn:E; [|apply nth_error_None in E; lia]. exists j, cmd, []. split; [exact E|]. split; [reflexivity|]. left. auto.
      * eapply DOWN; eauto. eapply IL_cmd; eauto.
    + inversion I; subst; right; cbn [app].
      * apply arguments_iff in A as (cmd & C & ->). exists j, cmd, [n]. split; [exact C|]. split; [reflexivity|]. right.
        destruct (nth_error (cmd ++ piped_arg (prev_of None q j)) n) as [a|] eqn:E; [|apply nth_error_None in E; lia].
        exists n, a, []. split; [exact E|]. split; [reflexivity|]. left. auto.
      * eapply DOWN; eauto. eapply IL_arg; eauto.
    + inversion I; subst; right; cbn [app].
      * apply arguments_iff in A as (cmd & C & ->). exists j, cmd, [n; i]. split; [exact C|]. split; [reflexivity|]. right.
        exists n, a, [i]. split; [exact En|]. split; [reflexivity|]. right. left. exists (k_name k). split; [exact Na|]. exists i, k. auto.
      * eapply DOWN; eauto. eapply IL_use; eauto.
  - intros [[-> ->]|(j & cmd & o' & C & -> & H)]; [apply (IL_pipe _ _ _ _ [] p), IS_here|].
    assert (A : arguments p j (cmd ++ piped_arg (prev_of None p j))) by (apply arguments_iff; eauto).
    destruct H as [[-> ->]|(n & a & o2 & En & -> & H)].
    { apply (IL_cmd _ _ _ _ [] p j); [apply IS_here|]. apply nth_error_Some. congruence. }
    destruct H as [[-> ->]|[(name & Na & (i & k & -> & Ek & <- & V))|(q & -> & H)]].
    + apply (IL_arg _ _ _ _ [] p j (cmd ++ piped_arg (prev_of None p j)) n); [apply IS_here|exact A|]. apply nth_error_Some. congruence.
    + apply (IL_use _ _ _ _ [] p j (cmd ++ piped_arg (prev_of None p j)) n a i k d); auto. apply IS_here.
    + destruct H as [o r I|o r j' I Hj|o r j' args m I A' Hn|o r j' args m a i k d I A' Em Na Ek V].
      * eapply IL_pipe. eapply IS_paren; eauto.
      * apply (IL_cmd _ _ _ _ (j :: n :: o) r j'); [eapply IS_paren; eauto|exact Hj].
      * apply (IL_arg _ _ _ _ (j :: n :: o) r j' args m); [eapply IS_paren; eauto|exact A'|exact Hn].
      * apply (IL_use _ _ _ _ (j :: n :: o) r j' args m a i k d); auto. eapply IS_paren; eauto.
Qed.
Lemma args_loop_app g xs ys : forall b c, args_loop g b (xs ++ ys) c = args_loop g (b + length xs) ys (args_loop g b xs c).
Proof.
  induction xs as [|x xs IH]; intros b c; cbn [app length]; [rewrite Nat.add_0_r; reflexivity|].
  replace (b + S (length xs))%nat with (S b + length xs)%nat by lia. apply (IH (S b)).
Qed.
Lemma piped_silent line prev c : forall full b, args_loop (resolve_arg line full) b (piped_arg prev) c = c.
Proof.
  intros full b. unfold piped_arg. destruct prev as [[|a [|]]|]; try reflexivity. destruct (string_literal a) as [s|] eqn:L; [|reflexivity].
  cbn [args_loop]. apply (literal_silent line full b a s). apply literal_iff, L.
Qed.
Lemma in_piped prev a : In a (piped_arg prev) -> exists cmd, prev = Some cmd /\ In a cmd.
Proof.
  unfold piped_arg. destruct prev as [[|x [|]]|]; try (intros []). destruct (string_literal x); [|intros []]. intros [<-|[]]. eexists. split; [reflexivity|left; reflexivity].
Qed.
Lemma arg_said_head file line args n a o d : arg_said file line args n a o d -> o = [] -> DArg = DArg /\ exists z, d = DPipe z.
Proof.
  intros H ->. split; [reflexivity|]. destruct H as [(name & _ & i & k & E & _)|(q & -> & H)]; [discriminate|].
  apply in_log_iff in H as [[_ ->]|(j & cmd & o' & _ & E & _)]; [eauto|discriminate].
Qed.
Lemma speaks_arg file line a : forall args n, speaks (resolve_arg_d file line args n a) (resolve_arg (ref file line) args n a) (arg_said file line args n a).
Proof.
  induction a as [m|ids|ids|a ids _|s|p IH|] using anode_rec'; intros args n; cbn [resolve_arg_d resolve_arg].
  - eapply speaks_ext; [apply (speaks_filter_kw (ref file line) m n args)|reflexivity|reflexivity|]. intros o e. unfold arg_said. split.
    + intros [(x & Hx & H)|(p & E & _)]; [|discriminate]. apply named_last in Hx. subst x. exact H.
    + intros H. left. exists m. split; [apply N_ident|exact H].
  - eapply speaks_ext; [apply (speaks_filter_id (ref file line) ids n args)|reflexivity|reflexivity|]. intros o e. unfold arg_said. split.
    + intros [(x & Hx & H)|(p & E & _)]; [|discriminate]. apply named_last in Hx. eauto.
    + intros (x & E & H). left. exists x. split; [apply named_last; exact E|exact H].
  - eapply speaks_ext; [apply (speaks_filter_id (ref file line) ids n args)|reflexivity|reflexivity|]. intros o e. unfold arg_said. split.
    + intros [(x & Hx & H)|(p & E & _)]; [|discriminate]. apply named_last in Hx. eauto.
    + intros (x & E & H). left. exists x. split; [apply named_last; exact E|exact H].
  - eapply speaks_ext; [apply (speaks_filter_id (ref file line) ids n args)|reflexivity|reflexivity|]. intros o e. unfold arg_said. split.
    + intros [(x & Hx & H)|(p & E & _)]; [|discriminate]. apply named_last in Hx. eauto.
    + intros (x & E & H). left. exists x. split; [apply named_last; exact E|exact H].
  - eapply speaks_ext; [exact (speaks_nop)|reflexivity|reflexivity|]. intros o e. unfold arg_said. split; [|intros []].
    intros [(x & Hx & _)|(p & E & _)]; [|discriminate]. apply named_last in Hx. exact Hx.
  - set (full := fun j cmd => cmd ++ piped_arg (prev_of None p j)).
    assert (C : forall j cmd, nth_error p j = Some cmd -> speaks
      (andthen (log (DCmd line)) (args_loop_d (resolve_arg_d file line (full j cmd)) 0 (full j cmd)))
      (fun c => args_loop (resolve_arg (ref file line) (full j cmd)) 0 cmd c)
      (fun o d => (o = [] /\ d = DCmd line) \/ exists n a o2, nth_error (full j cmd) n = Some a /\ o = n :: o2 /\
         ((o2 = [] /\ d = DArg) \/ arg_said file line (full j cmd) n a o2 d))).
    { intros j cmd E. apply speaks_part; [|intros o d (m & x & o2 & _ & -> & _) X; discriminate].
      eapply speaks_ext; [apply (speaks_list (fun i x => andthen (log DArg) (resolve_arg_d file line (full j cmd) i x))
         (fun i x => resolve_arg (ref file line) (full j cmd) i x)
         (fun i x o2 d => (o2 = [] /\ d = DArg) \/ arg_said file line (full j cmd) i x o2 d) (full j cmd) 0%nat)| | |].
      - intros i x Ex. cbn [Nat.add]. apply speaks_part; [|intros o d H; exact (arg_said_head _ _ _ _ _ _ _ H)].
        apply nth_error_In in Ex. unfold full in Ex. apply in_app_iff in Ex as [Ex|Ex].
        + apply (IH cmd (nth_error_In _ _ E) x Ex).
        + apply in_piped in Ex as (cmd' & Ep & Ex). destruct j as [|j']; [discriminate|]. cbn [prev_of] in Ep.
          apply (IH cmd' (nth_error_In _ _ Ep) x Ex).
      - intros c _. apply args_loop_d_loop.
      - intros c _. transitivity (args_loop (resolve_arg (ref file line) (full j cmd)) 0 (full j cmd) c); [|reflexivity].
        unfold full at 3. rewrite args_loop_app. symmetry. apply piped_silent.
      - intros o d. reflexivity. }
    eapply speaks_ext; [apply (speaks_part (DPipe line)); [apply (speaks_list
        (fun j cmd => andthen (log (DCmd line)) (args_loop_d (resolve_arg_d file line (full j cmd)) 0 (full j cmd)))
        (fun j cmd c => args_loop (resolve_arg (ref file line) (full j cmd)) 0 cmd c)
        (fun j cmd o d => (o = [] /\ d = DCmd line) \/ exists n a o2, nth_error (full j cmd) n = Some a /\ o = n :: o2 /\
         ((o2 = [] /\ d = DArg) \/ arg_said file line (full j cmd) n a o2 d)) p 0%nat)|]| | |].
    + intros j cmd E. cbn [Nat.add]. apply C, E.
    + intros o d (j & cmd & o' & _ & -> & _) X. discriminate.
    + intros c _. apply andthen_ext; [reflexivity|]. intros c'. apply cmds_loop_d_index.
    + intros c _. rewrite (cmds_loop_index _ p None c 0%nat). unfold loop_p. 
      assert (R : forall l b c, (fix loop (i : nat) (l0 : list (list anode)) (c0 : ctx) {struct l0} : ctx :=
         match l0 with [] => c0 | x :: r => loop (S i) r (args_loop (fun i0 x0 c1 => resolve_arg (ref file line) (x ++ piped_arg (prev_of None p (i - 0))) i0 x0 c1) 0 x c0) end) b l c
         = (fix loop (i : nat) (l0 : list (list anode)) (c0 : ctx) {struct l0} : ctx :=
         match l0 with [] => c0 | x :: r => loop (S i) r (args_loop (resolve_arg (ref file line) (full i x)) 0 x c0) end) b l c).
      { induction l as [|x l IHl]; intros b c2; [reflexivity|]. rewrite IHl. unfold full. rewrite Nat.sub_0_r. reflexivity. }
      apply R.
    + intros o d. unfold arg_said. split.
      * intros [(x & Hx & _)|(q & E & H)]; [apply named_last in Hx; destruct Hx|]. injection E as <-. apply in_log_iff in H. exact H.
      * intros H. right. exists p. split; [reflexivity|]. apply in_log_iff. exact H.
  - eapply speaks_ext; [exact (speaks_nop)|reflexivity|reflexivity|]. intros o e. unfold arg_said. split; [|intros []].
    intros [(x & Hx & _)|(p & E & _)]; [|discriminate]. apply named_last in Hx. exact Hx.
Qed.
Lemma speaks_pipe file line p : speaks (resolve_pipe_d file line p) (resolve_pipe file line p) (in_log file kws line p).
Proof.
  eapply speaks_ext; [apply (speaks_arg file line (APipe p) [] 0%nat)|reflexivity|reflexivity|].
  intros o e. unfold arg_said. split.
  - intros H. right. eauto.
  - intros [(x & Hx & _)|(q & E & H)]; [apply named_last in Hx; destruct Hx|]. injection E as <-. exact H.
Qed.

(** ** Templates *)
Lemma speaks_under i s f P : speaks s f P -> speaks s f (fun o d => exists o', o = i :: o' /\ P o' d).
Proof.
  intros H. eapply speaks_ext; [apply (speaks_cons i _ _ _ _ _ _ H speaks_nop)| | |].
  - intros o d [].
  - intros c _. symmetry. apply andthen_nop.
  - reflexivity.
  - intros o d. split; [auto|intros [X|[]]; exact X].
Qed.
Lemma speaks_branch file line p body els
  (IHb : speaks (resolve_node_d file body) (resolve_node file body) (logged file kws body))
  (IHe : forall t, els = Some t -> speaks (resolve_node_d file t) (resolve_node file t) (logged file kws t)) :
  speaks (andthen (resolve_pipe_d file line p)
            (andthen (resolve_node_d file body) match els with Some e => resolve_node_d file e | None => nop end))
    (fun c => let c := resolve_node file body (resolve_pipe file line p c) in match els with Some e => resolve_node file e c | None => c end)
    (fun o d => (exists o', o = 0%nat :: o' /\ in_log file kws line p o' d)
      \/ (exists o', o = 1%nat :: o' /\ logged file kws body o' d)
      \/ (exists o', o = 2%nat :: o' /\ exists t, els = Some t /\ logged file kws t o' d)).
Proof.
  assert (E3 : speaks match els with Some e => resolve_node_d file e | None => nop end
     (fun c => match els with Some e => resolve_node file e c | None => c end)
     (fun o d => exists o', o = 2%nat :: o' /\ exists t, els = Some t /\ logged file kws t o' d)).
  { destruct els as [t|].
    - eapply speaks_ext; [apply (speaks_under 2%nat _ _ _ (IHe t eq_refl))|reflexivity|reflexivity|].
      intros o d. split; (intros (o' & -> & H); exists o'; split; [reflexivity|]); [|eauto].
      destruct H as (t' & X & H). injection X as <-. exact H.
    - eapply speaks_ext; [exact speaks_nop|reflexivity|reflexivity|]. intros o d. split; [|intros []].
      intros (o' & _ & t & X & _). discriminate. }
  apply (speaks_cons 0%nat _ _ _ _ _ _ (speaks_pipe file line p)
    (speaks_cons 1%nat _ _ _ _ _ _ IHb E3 ltac:(intros o d (o' & -> & _); exists 2%nat, o'; split; [reflexivity|lia]))).
  intros o d [(o' & -> & _)|(o' & -> & _)]; [exists 1%nat, o'|exists 2%nat, o']; (split; [reflexivity|lia]).
Qed.
Lemma logged_list file l o d : logged file kws (TList l) o d <-> exists i t o', nth_error l i = Some t /\ o = i :: o' /\ logged file kws t o' d.
Proof.
  split.
  - intros [o1 line p o2 d' N H|o' line H]; inversion N || inversion H; subst; cbn [app]; do 3 eexists; (split; [eassumption|]); (split; [reflexivity|]);
      [eapply LG_pipe; eassumption|apply LG_bare; assumption].
  - intros (i & t & o' & E & -> & [o1 line p o2 d' N H|o2 line H]).
    + apply (LG_pipe _ _ _ (i :: o1) line p o2); [eapply IN_list; eauto|exact H].
    + apply LG_bare. eapply BA_list; eauto.
Qed.
Ltac branch_log := 
  split;
  [intros [o1 line q o2 d' N H|o1 line H];
     [inversion N; subst; cbn [app];
       [left; eexists; split; [reflexivity|exact H]
       |right; left; eexists; split; [reflexivity|]; eapply LG_pipe; eassumption
       |right; right; eexists; split; [reflexivity|]; eexists; split; [reflexivity|]; eapply LG_pipe; eassumption]
     |inversion H; subst;
       [right; left; eexists; split; [reflexivity|]; apply LG_bare; assumption
       |right; right; eexists; split; [reflexivity|]; eexists; split; [reflexivity|]; apply LG_bare; assumption]]
  |intros [(o' & -> & H)|[(o' & -> & [o1 line q o2 d' N H|o1 line H])|(o' & -> & t & -> & [o1 line q o2 d' N H|o1 line H])]];
     [eapply (LG_pipe _ _ _ [0%nat]); [constructor|exact H]
     |eapply (LG_pipe _ _ _ (1%nat :: o1)); [constructor; exact N|exact H]
     |apply LG_bare; constructor; exact H
     |eapply (LG_pipe _ _ _ (2%nat :: o1)); [constructor; exact N|exact H]
     |apply LG_bare; constructor; exact H]].
Theorem speaks_node file t : speaks (resolve_node_d file t) (resolve_node file t) (logged file kws t).
Proof.
  induction t as [l IH|l p|l p b e IHb IHe|l p b e IHb IHe|l p b e IHb IHe|l p|] using tnode_rec'; cbn [resolve_node_d resolve_node].
  - eapply speaks_ext; [apply (speaks_each (resolve_node_d file) (resolve_node file) (logged file kws) l IH)|reflexivity|reflexivity|].
    intros o d. apply logged_list.
  - eapply speaks_ext; [apply (speaks_under 0%nat _ _ _ (speaks_pipe file l p))|reflexivity|reflexivity|].
    intros o d. split.
    + intros [o1 line q o2 d' N H|o1 line H]; [|inversion H]. inversion N; subst. eexists. split; [reflexivity|exact H].
    + intros (o' & -> & H). apply (LG_pipe _ _ _ [0%nat] l p o'); [constructor|exact H].
  - eapply speaks_ext; [apply (speaks_branch file l p b e IHb IHe)|reflexivity|reflexivity|]. intros o d. branch_log.
  - eapply speaks_ext; [apply (speaks_branch file l p b e IHb IHe)|reflexivity|reflexivity|]. intros o d. branch_log.
  - eapply speaks_ext; [apply (speaks_branch file l p b e IHb IHe)|reflexivity|reflexivity|]. intros o d. branch_log.
  - destruct p as [p|].
    + eapply speaks_ext; [apply (speaks_under 0%nat _ _ _ (speaks_pipe file l p))|reflexivity|reflexivity|].
      intros o d. split.
      * intros [o1 line q o2 d' N H|o1 line H]; [|inversion H]. inversion N; subst. eexists. split; [reflexivity|exact H].
      * intros (o' & -> & H). apply (LG_pipe _ _ _ [0%nat] l p o'); [constructor|exact H].
    + eapply speaks_ext; [apply (speaks_under 0%nat _ _ _ (speaks_log (DNilPipe l)))|reflexivity|reflexivity|].
      intros o d. split.
      * intros [o1 line q o2 d' N H|o1 line H]; [inversion N|]. inversion H; subst. eexists. auto.
      * intros (o' & -> & -> & ->). apply LG_bare, BA_here.
  - eapply speaks_ext; [exact speaks_nop|reflexivity|reflexivity|]. intros o d. split; [|intros []].
    intros [o1 line q o2 d' N H|o1 line H]; [inversion N|inversion H].
Qed.
End Says.
