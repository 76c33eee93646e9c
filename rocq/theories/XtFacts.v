(** What xtemplate finds in a template: XtModel.resolve_node against XtSpec.message. *)
From Coq Require Import Lia ZifyBool ZifyNat ZifyN Sorted.
From Verif Require Import GoStr GoStrFacts GoMap GoMapFacts FileModel PoModel XtModel XtSpec.
Local Open Scope Z_scope.

(** ** Literals and names *)
Lemma literal_iff a s : literal a s <-> string_literal a = Some s.
Proof.
  split.
  - induction 1; cbn [string_literal]; auto.
  - revert a s. fix IH 1. intros [n|ids|ids|a' f|t|cmds|] s; cbn [string_literal]; try discriminate.
    + intros E; injection E as ->. apply L_str.
    + destruct cmds as [|[|x [|]] [|]]; try discriminate. intros E. apply L_paren, IH, E.
Qed.
Lemma literal_fun a s s' : literal a s -> literal a s' -> s = s'.
Proof. rewrite !literal_iff. congruence. Qed.
Lemma literal_not_named a s n : literal a s -> ~ named a n.
Proof. intros L N. destruct L; inversion N. Qed.
Lemma named_last a n : named a n <->
  match a with
  | AIdent m => m = n
  | AField ids | AVar ids | AChain _ ids => last_id ids = Some n
  | _ => False
  end.
Proof.
  assert (L : forall ids, last_id ids = Some n <-> exists l, ids = l ++ [n]).
  { intros ids. unfold last_id. split.
    - destruct (rev ids) eqn:E; [discriminate|]. intros X; injection X as <-.
      exists (rev l). rewrite <- (rev_involutive ids), E. reflexivity.
    - intros (l & ->). rewrite rev_app_distr. reflexivity. }
  split.
  - intros H. revert L. destruct H; intros L; try reflexivity; apply L; eexists; reflexivity.
  - destruct a as [m|ids|ids|a f|t|cmds|]; try tauto.
    + intros ->. apply N_ident.
    + rewrite L. intros (l & ->). apply N_field.
    + rewrite L. intros (l & ->). apply N_var.
    + rewrite L. intros (l & ->). apply N_chain.
Qed.

(** ** The message of a call *)
Lemma literals_spec n args texts : literals n args = Some texts <->
  length texts = n /\ forall i s, nth_error texts i = Some s -> exists a, nth_error args i = Some a /\ literal a s.
Proof.
  revert args texts. induction n as [|n IH]; intros args texts; cbn [literals].
  - split.
    + intros E; injection E as <-. split; [reflexivity|]. intros [|i] s; discriminate.
    + intros [E _]. destruct texts; [reflexivity|discriminate].
  - destruct args as [|a r].
    + split; [discriminate|]. intros [E H]. destruct texts as [|s t]; [discriminate|].
      destruct (H 0%nat s eq_refl) as (a & X & _). discriminate.
    + destruct (string_literal a) as [s|] eqn:L.
      * destruct (literals n r) as [l|] eqn:R.
        -- apply IH in R as [R1 R2]. split.
           ++ intros E; injection E as <-. split; [cbn [length]; congruence|].
              intros [|i] x; cbn [nth_error]; [|apply R2]. intros E; injection E as <-.
              exists a. split; [reflexivity|apply literal_iff, L].
           ++ intros [E H]. destruct texts as [|x t]; [discriminate|]. cbn [length] in E.
              f_equal. assert (literals n r = Some t) as Ht.
              { apply IH. split; [congruence|]. intros i y Hy. exact (H (S i) y Hy). }
              assert (literals n r = Some l) as Hl by (apply IH; split; assumption).
              destruct (H 0%nat x eq_refl) as (a' & A & La). cbn [nth_error] in A. injection A as <-.
              apply literal_iff in La. congruence.
        -- split; [discriminate|]. intros [E H]. destruct texts as [|x t]; [discriminate|]. cbn [length] in E.
           exfalso. assert (literals n r = Some t) as Ht.
           { apply IH. split; [congruence|]. intros i y Hy. exact (H (S i) y Hy). }
           congruence.
      * split; [discriminate|]. intros [E H]. destruct texts as [|x t]; [discriminate|].
        destruct (H 0%nat x eq_refl) as (a' & A & La). cbn [nth_error] in A. injection A as <-.
        apply literal_iff in La. congruence.
Qed.
Lemma nth_error_skipn {X} n i (l : list X) : nth_error (skipn n l) i = nth_error l (n + i).
Proof. revert l. induction n as [|n IH]; intros l; [reflexivity|]. destruct l; [destruct i; reflexivity|apply IH]. Qed.
Lemma pos_text_spec n args texts p s : literals n args = Some texts ->
  (pos_text texts p = Some s <-> 0 < p /\ (Z.to_nat p <= n)%nat /\ exists a, nth_error args (Z.to_nat p - 1) = Some a /\ literal a s).
Proof.
  intros L. apply literals_spec in L as [L1 L2]. unfold pos_text. destruct (Z.leb_spec p 0) as [Hp|Hp].
  - split; [discriminate|]. lia.
  - replace (Z.to_nat (p - 1)) with (Z.to_nat p - 1)%nat by lia. split.
    + intros E. split; [lia|]. split; [|exact (L2 _ _ E)].
      assert (nth_error texts (Z.to_nat p - 1) <> None) as X by congruence. apply nth_error_Some in X. lia.
    + intros (_ & Hn & a & A & La). destruct (nth_error texts (Z.to_nat p - 1)) as [x|] eqn:E.
      * destruct (L2 _ _ E) as (a' & A' & La'). f_equal. rewrite A in A'. injection A' as <-. exact (literal_fun _ _ _ La' La).
      * apply nth_error_None in E. lia.
Qed.
(** the number of literals read, and the declared positions *)
Lemma arg_count_spec k : 0 < k_id k ->
  (gapless k <-> forall p, declared k p <-> 1 <= p <= Z.of_nat (arg_count k)).
Proof.
  intros Hi. unfold gapless, declared, arg_count. split.
  - intros G p.
    assert (G' : forall q, 0 < q -> (k_ctxt k < q /\ k_id k < q /\ k_id2 k < q) \/ q = k_ctxt k \/ q = k_id k \/ q = k_id2 k).
    { intros q Hq. destruct (Z.lt_ge_cases (k_ctxt k) q) as [L1|L1]; [|right; apply (G (k_ctxt k) q); lia].
      destruct (Z.lt_ge_cases (k_id k) q) as [L2|L2]; [|right; apply (G (k_id k) q); lia].
      destruct (Z.lt_ge_cases (k_id2 k) q) as [L3|L3]; [|right; apply (G (k_id2 k) q); lia]. left. lia. }
    clear G. pose proof (G' 1 ltac:(lia)) as G1. pose proof (G' 2 ltac:(lia)) as G2. pose proof (G' 3 ltac:(lia)) as G3. clear G'.
    revert Hi G1 G2 G3. generalize (k_ctxt k) (k_id k) (k_id2 k). clear. intros c i j Hi G1 G2 G3.
    destruct (Z.gtb_spec c 0), (Z.eqb_spec c i), (Z.gtb_spec j 0), (Z.eqb_spec j i), (Z.eqb_spec j c);
      cbn [andb negb Nat.add]; try (exfalso; lia); split; intros; lia.
  - intros H p q Hp Hq. apply H. apply H in Hp. lia.
Qed.
Lemma declared_count k : 0 < k_id k -> (forall p, declared k p -> 1 <= p <= Z.of_nat (arg_count k)) -> gapless k.
Proof.
  intros Hi H. apply (arg_count_spec k Hi). intros p. split; [apply H|].
  unfold declared, arg_count in *.
  pose proof (H (k_id k)) as G1. pose proof (H (k_ctxt k)) as G2. pose proof (H (k_id2 k)) as G3. clear H.
  specialize (G1 (conj Hi (or_intror (or_introl eq_refl)))).
  assert (G2' : k_ctxt k <= 0 \/ 1 <= k_ctxt k <= Z.of_nat
    (1 + (if (k_ctxt k >? 0) && negb (k_ctxt k =? k_id k) then 1 else 0) +
     (if (k_id2 k >? 0) && negb (k_id2 k =? k_id k) && negb (k_id2 k =? k_ctxt k) then 1 else 0))).
  { destruct (Z.lt_ge_cases 0 (k_ctxt k)) as [L|L]; [right; apply G2; auto|left; exact L]. }
  assert (G3' : k_id2 k <= 0 \/ 1 <= k_id2 k <= Z.of_nat
    (1 + (if (k_ctxt k >? 0) && negb (k_ctxt k =? k_id k) then 1 else 0) +
     (if (k_id2 k >? 0) && negb (k_id2 k =? k_id k) && negb (k_id2 k =? k_ctxt k) then 1 else 0))).
  { destruct (Z.lt_ge_cases 0 (k_id2 k)) as [L|L]; [right; apply G3; auto|left; exact L]. }
  clear G2 G3. revert Hi G1 G2' G3'. generalize (k_ctxt k) (k_id k) (k_id2 k). clear. intros c i j Hi G1 G2 G3.
  destruct (Z.gtb_spec c 0), (Z.eqb_spec c i), (Z.gtb_spec j 0), (Z.eqb_spec j i), (Z.eqb_spec j c);
      cbn [andb negb Nat.add] in *; try (exfalso; lia); intros; lia.
Qed.
Lemma format_cmts (line : bytes) (e : entry) : e_cmts e = [B "#: " ++ line] ->
  (is_go_format e = true <-> In "%"%char (e_id e) \/ In "%"%char (e_id2 e)).
Proof. intros _. unfold is_go_format. rewrite Bool.orb_true_iff, !contains_byte_iff. reflexivity. Qed.
Lemma text_at_count n args k texts p s : literals (arg_count k) (skipn (S n) args) = Some texts -> 
  (pos_text texts p = Some s <-> (p <= Z.of_nat (arg_count k)) /\ text_at args n p s).
Proof.
  intros L. rewrite (pos_text_spec _ _ _ _ _ L). unfold text_at. split.
  - intros (H1 & H2 & a & A & La). split; [lia|]. split; [exact H1|]. exists a. split; [|exact La].
    rewrite nth_error_skipn in A. rewrite <- A. f_equal. lia.
  - intros (H1 & H2 & a & A & La). split; [exact H2|]. split; [lia|]. exists a. split; [|exact La].
    rewrite nth_error_skipn, <- A. f_equal. lia.
Qed.
Lemma gtb_ltb a b : (a >? b) = (b <? a). Proof. lia. Qed.
Lemma extract_spec line k n args texts e : literals (arg_count k) (skipn (S n) args) = Some texts ->
  (extract line k texts = Some e <-> gapless k /\ describes line k args n e).
Proof.
  intros L. pose proof (fun p s => text_at_count n args k texts p s L) as T.
  unfold extract. rewrite !gtb_ltb. split.
  - destruct (if 0 <? k_ctxt k then pos_text texts (k_ctxt k) else Some []) as [c|] eqn:C; [|discriminate].
    destruct (pos_text texts (k_id k)) as [i|] eqn:I; [|discriminate].
    destruct (if 0 <? k_id2 k then pos_text texts (k_id2 k) else Some []) as [i2|] eqn:I2; [|discriminate].
    apply T in I as [I1 I].
    assert (Hi : 0 < k_id k) by exact (proj1 I).
    assert (HC : if 0 <? k_ctxt k then k_ctxt k <= Z.of_nat (arg_count k) /\ text_at args n (k_ctxt k) c else c = []).
    { destruct (0 <? k_ctxt k); [apply T, C|congruence]. }
    assert (HI2 : if 0 <? k_id2 k then k_id2 k <= Z.of_nat (arg_count k) /\ text_at args n (k_id2 k) i2 else i2 = []).
    { destruct (0 <? k_id2 k); [apply T, I2|congruence]. }
    assert (G : gapless k).
    { apply (declared_count k Hi). unfold declared. intros p (Hp & [-> | [-> | ->]]).
      - destruct (Z.ltb_spec 0 (k_ctxt k)); lia.
      - lia.
      - destruct (Z.ltb_spec 0 (k_id2 k)); lia. }
    cbv zeta. set (e0 := {| e_cmts := [B "#: " ++ line]; e_ctxt := c; e_id := i; e_plural := _; e_id2 := i2; e_str := []; e_strn := [] |}).
    pose proof (format_cmts line e0 eq_refl) as F. cbn [e_id e_id2 e0] in F.
    intros E. assert (E' : e = if is_go_format e0 then {| e_cmts := [B "#: " ++ line; B "#, go-format"]; e_ctxt := c; e_id := i;
       e_plural := 0 <? k_id2 k; e_id2 := i2; e_str := []; e_strn := [] |} else e0) by congruence.
    clear E. split; [exact G|].
    assert (Q : e_ctxt e = c /\ e_id e = i /\ e_id2 e = i2 /\ e_plural e = (0 <? k_id2 k) /\ e_str e = [] /\ e_strn e = []).
    { subst e. destruct (is_go_format e0); repeat split; reflexivity. }
    destruct Q as (Q1 & Q2 & Q3 & Q4 & Q5 & Q6). constructor; rewrite ?Q1, ?Q2, ?Q3.
    + destruct (0 <? k_ctxt k); tauto.
    + exact I.
    + destruct (0 <? k_id2 k); tauto.
    + exact Q4.
    + subst e. destruct (is_go_format e0) eqn:G0.
      * left. split; [apply F; reflexivity|reflexivity].
      * right. assert (NF : ~ (In "%"%char i \/ In "%"%char i2)) by (intros X; apply F in X; discriminate). tauto.
    + tauto.
  - intros (G & D). destruct D as [DC DI DI2 DP DM DS].
    assert (Hi : 0 < k_id k) by exact (proj1 DI).
    pose proof (proj1 (arg_count_spec k Hi) G) as A.
    assert (A1 : k_id k <= Z.of_nat (arg_count k)) by (apply A; unfold declared; auto).
    assert (C : (if 0 <? k_ctxt k then pos_text texts (k_ctxt k) else Some []) = Some (e_ctxt e)).
    { revert DC. destruct (Z.ltb_spec 0 (k_ctxt k)); intros DC; [|rewrite DC; reflexivity]. apply T. split; [|exact DC]. apply A; unfold declared; auto. }
    assert (I2 : (if 0 <? k_id2 k then pos_text texts (k_id2 k) else Some []) = Some (e_id2 e)).
    { revert DI2. destruct (Z.ltb_spec 0 (k_id2 k)); intros DI2; [|rewrite DI2; reflexivity]. apply T. split; [|exact DI2]. apply A; unfold declared; auto. }
    rewrite C, I2, (proj2 (T (k_id k) (e_id e)) (conj A1 DI)). cbv zeta.
    set (e0 := {| e_cmts := [B "#: " ++ line]; e_ctxt := e_ctxt e; e_id := e_id e; e_plural := _; e_id2 := e_id2 e; e_str := []; e_strn := [] |}).
    pose proof (format_cmts line e0 eq_refl) as F. cbn [e_id e_id2 e0] in F.
    destruct e as [cm cx id pl id2 st sn]; cbn in *. destruct DS as [-> ->]. subst pl.
    destruct (is_go_format e0) eqn:G0.
    + destruct DM as [[X ->]|(X & Y & _)]; [reflexivity|]. exfalso. destruct (proj1 F eq_refl); auto.
    + destruct DM as [[X _]|(X & Y & ->)]; [|reflexivity]. apply F in X. discriminate.
Qed.
(** a described call has all the literals it needs *)
Lemma describes_literals line k n args e : gapless k -> describes line k args n e ->
  exists texts, literals (arg_count k) (skipn (S n) args) = Some texts.
Proof.
  intros G D. assert (Hi : 0 < k_id k) by exact (proj1 (d_id _ _ _ _ _ D)).
  pose proof (proj1 (arg_count_spec k Hi) G) as A.
  assert (X : forall q, 1 <= q <= Z.of_nat (arg_count k) -> exists s, text_at args n q s).
  { intros q Hq. apply A in Hq as (Hq & [-> | [-> | ->]]).
    - pose proof (d_ctxt _ _ _ _ _ D) as DC. destruct (Z.ltb_spec 0 (k_ctxt k)); [eauto|lia].
    - pose proof (d_id _ _ _ _ _ D). eauto.
    - pose proof (d_id2 _ _ _ _ _ D) as DC. destruct (Z.ltb_spec 0 (k_id2 k)); [eauto|lia]. }
  clear A D G. revert X. generalize (arg_count k) as m. intros m X.
  assert (Y : forall i, (i < m)%nat -> exists a s, nth_error (skipn (S n) args) i = Some a /\ string_literal a = Some s).
  { intros i Hi'. destruct (X (Z.of_nat i + 1)) as (s & _ & a & E & L); [lia|]. exists a, s.
    rewrite nth_error_skipn. split; [rewrite <- E; f_equal; lia|apply literal_iff, L]. }
  clear X. revert Y. generalize (skipn (S n) args) as r. induction m as [|m IH]; intros r Y; cbn [literals]; [eauto|].
  destruct (Y 0%nat) as (a & s & E & L); [lia|]. destruct r as [|a' r]; [discriminate|]. cbn [nth_error] in E. injection E as ->.
  rewrite L. destruct (IH r) as (t & ->).
  - intros i Hi'. apply (Y (S i)). lia.
  - eauto.
Qed.

(** ** Emission: a function adds the messages at given places, in their order *)
Notation emitted := (list (list nat * entry)).
Definition emits (kws : list keyword) (f : ctx -> ctx) (P : list nat -> entry -> Prop) : Prop :=
  exists l : emitted, (forall c, c_kws c = kws -> f c = fold_left ctx_add (map snd l) c)
    /\ StronglySorted before (map fst l) /\ forall o e, In (o, e) l <-> P o e.
Lemma ctx_add_kws c e : c_kws (ctx_add c e) = c_kws c.
Proof. unfold ctx_add. destruct (mget _ _); [destruct (negb _)|]; reflexivity. Qed.
Lemma fold_add_kws l c : c_kws (fold_left ctx_add l c) = c_kws c.
Proof. revert c. induction l as [|e l IH]; intros c; cbn [fold_left]; [reflexivity|]. rewrite IH. apply ctx_add_kws. Qed.
Section Emits.
Variable kws : list keyword.
Notation emits := (emits kws).
Lemma emits_ext f g P Q : (forall c, c_kws c = kws -> f c = g c) -> (forall o e, P o e <-> Q o e) -> emits f P -> emits g Q.
Proof.
  intros E H (l & L1 & L2 & L3). exists l. split; [intros c Hc; rewrite <- (E c Hc); auto|].
  split; [exact L2|]. intros o e. rewrite L3. apply H.
Qed.
Lemma emits_nil : emits (fun c => c) (fun _ _ => False).
Proof. exists []. split; [reflexivity|]. split; [constructor|]. intros o e. split; [intros []|intros []]. Qed.
Lemma emits_one e : emits (fun c => ctx_add c e) (fun o e' => o = [] /\ e' = e).
Proof.
  exists [([], e)]. split; [reflexivity|]. split; [repeat constructor|]. intros o e'. cbn [In].
  split; [intros [E|[]]; injection E as <- <-; auto|intros [-> ->]; auto].
Qed.
Lemma emits_cons i f P g Q : emits f P -> emits g Q -> (forall o e, Q o e -> exists j o', o = j :: o' /\ (i < j)%nat) ->
  emits (fun c => g (f c)) (fun o e => (exists o', o = i :: o' /\ P o' e) \/ Q o e).
Proof.
  intros (l & L1 & L2 & L3) (m & M1 & M2 & M3) H.
  exists (map (fun x => (i :: fst x, snd x)) l ++ m). split.
  - intros c Hc. rewrite map_app, fold_left_app, map_map.
    change (map (fun x : list nat * entry => snd (i :: fst x, snd x)) l) with (map (@snd (list nat) entry) l).
    rewrite <- (L1 c Hc). apply M1. rewrite (L1 c Hc), fold_add_kws. exact Hc.
  - split.
    + rewrite map_app, map_map. cbn [fst]. rewrite <- (map_map fst (cons i)).
      clear L1 L3 M1. assert (H' : forall o, In o (map fst m) -> exists j o', o = j :: o' /\ (i < j)%nat).
      { intros o Ho. apply in_map_iff in Ho as ([o' e] & <- & Ho). apply M3 in Ho. exact (H _ _ Ho). }
      revert L2 M2 H'. generalize (map fst l) as a, (map fst m) as b. clear. intros a b A Bb H.
      induction A as [|x a A IH F]; cbn [map app]; [exact Bb|]. constructor; [exact IH|].
      apply Forall_app. split.
      * apply Forall_map. eapply Forall_impl; [|exact F]. intros y Hy. apply BE_tail, Hy.
      * apply Forall_forall. intros y Hy. destruct (H y Hy) as (j & o' & -> & L). apply BE_head, L.
    + intros o e. rewrite in_app_iff, M3, in_map_iff. split.
      * intros [((o', e') & E & I)|I]; [left|right; exact I]. cbn in E. injection E as <- <-. exists o'. split; [reflexivity|]. apply L3, I.
      * intros [(o' & -> & I)|I]; [left|right; exact I]. exists (o', e). split; [reflexivity|]. apply L3, I.
Qed.
(** a fold over a list, each element with its index *)
Lemma emits_list {X} (g : nat -> X -> ctx -> ctx) (P : nat -> X -> list nat -> entry -> Prop) (xs : list X) :
  forall b, (forall i x, nth_error xs i = Some x -> emits (g (b + i)%nat x) (P (b + i)%nat x)) ->
  emits (fun c => (fix loop (i : nat) (l : list X) (c : ctx) : ctx := match l with [] => c | x :: r => loop (S i) r (g i x c) end) b xs c)
    (fun o e => exists i x o', nth_error xs i = Some x /\ o = (b + i)%nat :: o' /\ P (b + i)%nat x o' e).
Proof.
  induction xs as [|x xs IH]; intros b H.
  - eapply emits_ext; [| |exact emits_nil]; [reflexivity|]. intros o e. split; [intros []|].
    intros ([|i] & x & o' & E & _); discriminate.
  - assert (H0 : emits (g b x) (P b x)).
    { specialize (H 0%nat x eq_refl). replace (b + 0)%nat with b in H by lia. exact H. }
    assert (IH' := IH (S b)). specialize (IH' ltac:(intros i y E; specialize (H (S i) y E); replace (S b + i)%nat with (b + S i)%nat by lia; exact H)).
    eapply emits_ext; [| |apply (emits_cons b _ _ _ _ H0 IH')].
    + intros c Hc. reflexivity.
    + intros o e. split.
      * intros [(o' & -> & I)|(i & y & o' & E & -> & I)].
        -- exists 0%nat, x, o'. replace (b + 0)%nat with b by lia. auto.
        -- exists (S i), y, o'. replace (b + S i)%nat with (S b + i)%nat by lia. auto.
      * intros ([|i] & y & o' & E & -> & I).
        -- left. cbn [nth_error] in E. injection E as ->. replace (b + 0)%nat with b in * by lia. eauto.
        -- right. exists i, y, o'. replace (b + S i)%nat with (S b + i)%nat in * by lia. auto.
    + intros o e (i & y & o' & _ & -> & _). exists (S b + i)%nat, o'. split; [reflexivity|lia].
Qed.
Lemma emits_fold {X} (g : X -> ctx -> ctx) (P : X -> list nat -> entry -> Prop) (xs : list X) :
  (forall x, In x xs -> emits (g x) (P x)) ->
  emits (fun c => fold_left (fun c x => g x c) xs c) (fun o e => exists i x o', nth_error xs i = Some x /\ o = i :: o' /\ P x o' e).
Proof.
  intros H. eapply emits_ext; [| |apply (emits_list (fun _ => g) (fun _ => P) xs 0%nat)].
  - intros c _. generalize 0%nat. revert c. clear H. induction xs as [|x xs IH]; intros c n; cbn [fold_left]; [reflexivity|]. apply IH.
  - intros o e. reflexivity.
  - intros i x E. apply H. exact (nth_error_In _ _ E).
Qed.

(** keywords at one name *)
Lemma emits_filter_one line name n args k : emits (fun c => filter_one line name n args c k)
  (fun o e => o = [] /\ k_name k = name /\ gapless k /\ describes line k args n e).
Proof.
  unfold filter_one. destruct (beq_spec (k_name k) name) as [E|E].
  - destruct (literals (arg_count k) (skipn (S n) args)) as [texts|] eqn:L.
    + destruct (extract line k texts) as [e|] eqn:X.
      * eapply emits_ext; [| |exact (emits_one e)]; [reflexivity|]. intros o e'. pose proof (extract_spec line k n args texts e' L) as S.
        rewrite X in S. split; [intros [-> ->]; tauto|]. intros (-> & _ & G). split; [reflexivity|]. apply S in G. congruence.
      * eapply emits_ext; [| |exact emits_nil]; [reflexivity|]. intros o e'. pose proof (extract_spec line k n args texts e' L) as S.
        rewrite X in S. split; [intros []|]. intros (_ & _ & G). apply S in G. discriminate.
    + eapply emits_ext; [| |exact emits_nil]; [reflexivity|]. intros o e'. split; [intros []|].
      intros (_ & _ & G & D). destruct (describes_literals _ _ _ _ _ G D) as (t & T). congruence.
  - eapply emits_ext; [| |exact emits_nil]; [reflexivity|]. intros o e'. split; [intros []|tauto].
Qed.
Definition hit line name args n (o : list nat) (e : entry) : Prop :=
  exists i k, o = [i] /\ nth_error kws i = Some k /\ k_name k = name /\ gapless k /\ describes line k args n e.
Lemma emits_filter_kw line name n args : emits (filter_kw line name n args) (hit line name args n).
Proof.
  eapply emits_ext; [| |apply (emits_fold (fun k c => filter_one line name n args c k)
    (fun k o e => o = [] /\ k_name k = name /\ gapless k /\ describes line k args n e) kws)].
  - intros c Hc. unfold filter_kw. rewrite Hc. reflexivity.
  - intros o e. unfold hit. split.
    + intros (i & k & o' & E & -> & -> & H). exists i, k. tauto.
    + intros (i & k & -> & E & H). exists i, k, []. tauto.
  - intros k _. apply emits_filter_one.
Qed.
Lemma emits_filter_id line ids n args : emits (filter_id line ids n args)
  (fun o e => exists name, last_id ids = Some name /\ hit line name args n o e).
Proof.
  unfold filter_id. destruct (last_id ids) as [name|].
  - eapply emits_ext; [| |apply (emits_filter_kw line name n args)]; [reflexivity|].
    intros o e. split; [eauto|]. intros (m & E & H). injection E as ->. exact H.
  - eapply emits_ext; [| |exact emits_nil]; [reflexivity|]. intros o e. split; [intros []|]. intros (m & E & _). discriminate.
Qed.

(** ** Pipelines *)
Definition prev_of (prev : option (list anode)) (p : pipe) (j : nat) : option (list anode) :=
  match j with O => prev | S j' => nth_error p j' end.
Lemma arguments_iff p j args : arguments p j args <->
  exists cmd, nth_error p j = Some cmd /\ args = cmd ++ piped_arg (prev_of None p j).
Proof.
  split.
  - intros [j' cmd a s -> Ha L E|cmd N E].
    + exists cmd. split; [exact E|]. cbn [prev_of]. rewrite Ha. cbn [piped_arg]. apply literal_iff in L. rewrite L. reflexivity.
    + exists cmd. split; [exact E|]. destruct j as [|j']; cbn [prev_of piped_arg]; [symmetry; apply app_nil_r|].
      destruct (nth_error p j') as [[|a [|]]|] eqn:F; cbn [piped_arg]; try (symmetry; apply app_nil_r).
      destruct (string_literal a) as [s|] eqn:L; [|symmetry; apply app_nil_r].
      exfalso. apply (N j' a s eq_refl F). apply literal_iff, L.
  - intros (cmd & E & ->). destruct j as [|j']; cbn [prev_of piped_arg].
    + rewrite app_nil_r. apply A_plain; [discriminate|exact E].
    + destruct (nth_error p j') as [[|a [|b r]]|] eqn:F; cbn [piped_arg].
      * rewrite app_nil_r. apply A_plain; [|exact E]. intros j'' a s X Y. injection X as <-. congruence.
      * destruct (string_literal a) as [s|] eqn:L.
        -- apply (A_piped _ _ j' cmd a s); auto. apply literal_iff, L.
        -- rewrite app_nil_r. apply A_plain; [|exact E]. intros j'' a' s X Y. injection X as <-. intros L'.
           apply literal_iff in L'. congruence.
      * rewrite app_nil_r. apply A_plain; [|exact E]. intros j'' a' s X Y. injection X as <-. congruence.
      * rewrite app_nil_r. apply A_plain; [|exact E]. intros j'' a' s X Y. injection X as <-. congruence.
Qed.
Lemma cmds_loop_index g p : forall prev c b, cmds_loop g prev p c =
  (fix loop (i : nat) (l : list (list anode)) (c : ctx) : ctx :=
     match l with [] => c | x :: r => loop (S i) r (args_loop (g (x ++ piped_arg (prev_of prev p (i - b)))) 0 x c) end) b p c.
Proof.
  enough (H : forall q l prev c b i, (i = b + length q)%nat ->
    cmds_loop g (prev_of prev (q ++ l) (length q)) l c =
    (fix loop (i : nat) (l0 : list (list anode)) (c : ctx) : ctx :=
     match l0 with [] => c | x :: r => loop (S i) r (args_loop (g (x ++ piped_arg (prev_of prev (q ++ l) (i - b)))) 0 x c) end) i l c).
  { intros prev c b. apply (H [] p prev c b b). cbn [length]. lia. }
  intros q l. revert q. induction l as [|x l IH]; intros q prev c b i Hi; [reflexivity|].
  cbn [cmds_loop]. replace (i - b)%nat with (length q) by lia.
  specialize (IH (q ++ [x]) prev). rewrite <- app_assoc in IH. cbn [app] in IH.
  rewrite <- (IH _ b (S i)); [|rewrite app_length; cbn [length]; lia].
  unfold cmds_loop. f_equal. rewrite app_length. cbn [length]. replace (length q + 1)%nat with (S (length q)) by lia.
  cbn [prev_of]. rewrite nth_error_app2 by lia. rewrite Nat.sub_diag. reflexivity.
Qed.
Section AnodeInd.
Variable P : anode -> Prop.
Hypothesis HI : forall n, P (AIdent n).
Hypothesis HF : forall ids, P (AField ids).
Hypothesis HV : forall ids, P (AVar ids).
Hypothesis HC : forall a ids, P a -> P (AChain a ids).
Hypothesis HS : forall s, P (AStr s).
Hypothesis HP : forall p, (forall cmd, In cmd p -> forall a, In a cmd -> P a) -> P (APipe p).
Hypothesis HO : P AOther.
Fixpoint anode_rec' (a : anode) : P a :=
  match a with
  | AIdent n => HI n | AField ids => HF ids | AVar ids => HV ids
  | AChain a ids => HC a ids (anode_rec' a)
  | AStr s => HS s
  | APipe p => HP p ((fix cmds (p : pipe) : forall cmd, In cmd p -> forall a, In a cmd -> P a :=
      match p with
      | [] => fun cmd F => match F with end
      | c :: r => fun cmd F =>
          match F with
          | or_introl E => match E in _ = y return forall a, In a y -> P a with eq_refl =>
              (fix args (l : list anode) : forall a, In a l -> P a :=
                match l with
                | [] => fun a F => match F with end
                | x :: t => fun a F => match F with
                    | or_introl E => match E in _ = y return P y with eq_refl => anode_rec' x end
                    | or_intror F => args t a F end
                end) c end
          | or_intror F => cmds r cmd F
          end
      end) p)
  | AOther => HO
  end.
End AnodeInd.

(** the messages in a pipeline *)
Definition pipe_hit line (p : pipe) (o : list nat) (e : entry) : Prop :=
  exists o' i k args n, o = o' ++ [i] /\ in_pipe p o' args n /\ nth_error kws i = Some k /\ calls line k args n e /\ gapless k.
Definition arg_hit line args n (a : anode) (o : list nat) (e : entry) : Prop :=
  (exists name, named a name /\ hit line name args n o e) \/ (exists p, a = APipe p /\ pipe_hit line p o e).
Lemma pipe_hit_iff line p o e : pipe_hit line p o e <->
  exists j cmd n a o', nth_error p j = Some cmd /\ nth_error cmd n = Some a /\ o = j :: n :: o'
    /\ arg_hit line (cmd ++ piped_arg (prev_of None p j)) n a o' e.
Proof.
  split.
  - intros (o' & i & k & args & n & -> & I & K & ((a & A & Na) & D) & G). destruct I as [p j args n Ar Ln|p j cmd i' inner o args n E1 E2 I].
    + apply arguments_iff in Ar as (cmd & E & ->).
      assert (Lc : (n < length cmd)%nat).
      { destruct (Nat.lt_ge_cases n (length cmd)) as [H|H]; [exact H|exfalso].
        rewrite nth_error_app2 in A by lia. unfold piped_arg in A.
        destruct (prev_of None p j) as [[|x [|]]|]; try (destruct (n - length cmd)%nat; discriminate).
        destruct (string_literal x) eqn:L; [|destruct (n - length cmd)%nat; discriminate].
        destruct (n - length cmd)%nat as [|[|]]; try discriminate. cbn [nth_error] in A. injection A as <-.
        apply literal_iff in L. exact (literal_not_named _ _ _ L Na). }
      exists j, cmd, n, a, [i]. split; [exact E|]. split; [rewrite nth_error_app1 in A by lia; exact A|]. split; [reflexivity|].
      left. exists (k_name k). split; [exact Na|]. exists i, k. auto.
    + exists j, cmd, i', (APipe inner), (o ++ [i]). split; [exact E1|]. split; [exact E2|]. split; [reflexivity|].
      right. exists inner. split; [reflexivity|]. exists o, i, k, args, n. split; [reflexivity|]. split; [exact I|]. split; [exact K|]. split; [|exact G]. split; [eauto|exact D].
  - intros (j & cmd & n & a & o' & E1 & E2 & -> & [(name & Na & (i & k & -> & K & <- & G & D))|(inner & -> & H)]).
    + exists [j; n], i, k, (cmd ++ piped_arg (prev_of None p j)), n. split; [reflexivity|].
      assert (Ln : (n < length cmd)%nat) by (apply nth_error_Some; congruence).
      split; [apply IP_here; [apply arguments_iff; eauto|rewrite app_length; lia]|]. split; [exact K|]. split; [|exact G].
      split; [|exact D]. exists a. split; [rewrite nth_error_app1 by lia; exact E2|exact Na].
    + destruct H as (o2 & i & k & args & m & -> & I & K & C & G).
      exists (j :: n :: o2), i, k, args, m. split; [reflexivity|]. split; [|auto]. eapply IP_paren; eauto.
Qed.
Lemma emits_arg line a : forall args n, emits (resolve_arg line args n a) (arg_hit line args n a).
Proof.
  induction a as [m|ids|ids|a ids _|s|p IH|] using anode_rec'; intros args n; cbn [resolve_arg].
  - eapply emits_ext; [| |apply (emits_filter_kw line m n args)]; [reflexivity|]. intros o e. unfold arg_hit. split.
    + intros H. left. exists m. split; [apply N_ident|exact H].
    + intros [(x & Hx & H)|(p & E & _)]; [|discriminate]. apply named_last in Hx. subst x. exact H.
  - eapply emits_ext; [| |apply (emits_filter_id line ids n args)]; [reflexivity|]. intros o e. unfold arg_hit. split.
    + intros (x & E & H). left. exists x. split; [apply named_last; exact E|exact H].
    + intros [(x & Hx & H)|(p & E & _)]; [|discriminate]. apply named_last in Hx. eauto.
  - eapply emits_ext; [| |apply (emits_filter_id line ids n args)]; [reflexivity|]. intros o e. unfold arg_hit. split.
    + intros (x & E & H). left. exists x. split; [apply named_last; exact E|exact H].
    + intros [(x & Hx & H)|(p & E & _)]; [|discriminate]. apply named_last in Hx. eauto.
  - eapply emits_ext; [| |apply (emits_filter_id line ids n args)]; [reflexivity|]. intros o e. unfold arg_hit. split.
    + intros (x & E & H). left. exists x. split; [apply named_last; exact E|exact H].
    + intros [(x & Hx & H)|(p & E & _)]; [|discriminate]. apply named_last in Hx. eauto.
  - eapply emits_ext; [| |exact emits_nil]; [reflexivity|]. intros o e. unfold arg_hit. split; [intros []|].
    intros [(x & Hx & _)|(p & E & _)]; [|discriminate]. apply named_last in Hx. exact Hx.
  - eapply emits_ext; [| |apply (emits_list (fun j cmd c => args_loop (fun i x c => resolve_arg line (cmd ++ piped_arg (prev_of None p (j - 0))) i x c) 0 cmd c)
      (fun j cmd o e => exists i x o', nth_error cmd i = Some x /\ o = (0 + i)%nat :: o' /\ arg_hit line (cmd ++ piped_arg (prev_of None p (j - 0))) (0 + i)%nat x o' e) p 0%nat)].
    + intros c _. rewrite (cmds_loop_index _ p None c 0%nat). reflexivity.
    + intros o e. unfold arg_hit at 2. split.
      * intros (j & cmd & o1 & E1 & -> & (i & x & o2 & E2 & -> & H)). right. exists p. split; [reflexivity|].
        apply pipe_hit_iff. cbn [Nat.add] in *. rewrite Nat.sub_0_r in H. exists j, cmd, i, x, o2. auto.
      * intros [(x & Hx & _)|(q & E & H)]; [apply named_last in Hx; destruct Hx|]. injection E as <-.
        apply pipe_hit_iff in H as (j & cmd & i & x & o2 & E1 & E2 & -> & H). exists j, cmd, (i :: o2). cbn [Nat.add].
        split; [exact E1|]. split; [reflexivity|]. exists i, x, o2. rewrite Nat.sub_0_r. auto.
    + intros j cmd E. cbn [Nat.add]. apply (emits_list (fun i x c => resolve_arg line (cmd ++ piped_arg (prev_of None p (j - 0))) i x c)
        (fun i x => arg_hit line (cmd ++ piped_arg (prev_of None p (j - 0))) i x) cmd 0%nat).
      intros i x Ex. cbn [Nat.add]. apply (IH cmd (nth_error_In _ _ E) x (nth_error_In _ _ Ex)).
  - eapply emits_ext; [| |exact emits_nil]; [reflexivity|]. intros o e. unfold arg_hit. split; [intros []|].
    intros [(x & Hx & _)|(p & E & _)]; [|discriminate]. apply named_last in Hx. exact Hx.
Qed.
Lemma emits_pipe file line p : emits (resolve_pipe file line p) (pipe_hit (ref file line) p).
Proof.
  eapply emits_ext; [| |apply (emits_arg (ref file line) (APipe p) [] 0%nat)]; [reflexivity|].
  intros o e. unfold arg_hit. split.
  - intros [(x & Hx & _)|(q & E & H)]; [apply named_last in Hx; destruct Hx|]. injection E as <-. exact H.
  - intros H. right. eauto.
Qed.

(** ** Templates *)
Section TnodeInd.
Variable P : tnode -> Prop.
Hypothesis HL : forall l, (forall t, In t l -> P t) -> P (TList l).
Hypothesis HA : forall l p, P (TAction l p).
Hypothesis HI : forall l p b e, P b -> (forall t, e = Some t -> P t) -> P (TIf l p b e).
Hypothesis HR : forall l p b e, P b -> (forall t, e = Some t -> P t) -> P (TRange l p b e).
Hypothesis HW : forall l p b e, P b -> (forall t, e = Some t -> P t) -> P (TWith l p b e).
Hypothesis HT : forall l p, P (TTemplate l p).
Hypothesis HO : P TOther.
Fixpoint tnode_rec' (t : tnode) : P t :=
  let opt := fun (e : option tnode) => match e return forall t, e = Some t -> P t with
    | Some x => fun t E => match E in _ = y return match y with Some t => P t | None => True end with eq_refl => tnode_rec' x end
    | None => fun t E => match E in _ = y return match y with Some t => P t | None => True end with eq_refl => I end
    end in
  match t with
  | TList l => HL l ((fix go (l : list tnode) : forall t, In t l -> P t :=
      match l with
      | [] => fun t F => match F with end
      | x :: r => fun t F => match F with
          | or_introl E => match E in _ = y return P y with eq_refl => tnode_rec' x end
          | or_intror F => go r t F end
      end) l)
  | TAction l p => HA l p
  | TIf l p b e => HI l p b e (tnode_rec' b) (opt e)
  | TRange l p b e => HR l p b e (tnode_rec' b) (opt e)
  | TWith l p b e => HW l p b e (tnode_rec' b) (opt e)
  | TTemplate l p => HT l p
  | TOther => HO
  end.
End TnodeInd.
Definition node_hit file (t : tnode) (o : list nat) (e : entry) : Prop := exists k, message file kws t o k e /\ gapless k.
Lemma node_hit_iff file t o e : node_hit file t o e <->
  exists o1 o2 line p, o = o1 ++ o2 /\ in_node t o1 line p /\ pipe_hit (ref file line) p o2 e.
Proof.
  unfold node_hit, message, pipe_hit. split.
  - intros (k & (o1 & o2 & i & line & p & args & n & -> & N & I & K & C) & G).
    exists o1, (o2 ++ [i]), line, p. split; [reflexivity|]. split; [exact N|]. exists o2, i, k, args, n. auto.
  - intros (o1 & o2 & line & p & -> & N & (o' & i & k & args & n & -> & I & K & C & G)).
    exists k. split; [|exact G]. exists o1, o', i, line, p, args, n. auto.
Qed.
(** condition, body and else part *)
Lemma emits_branch file line p body els
  (IHb : emits (resolve_node file body) (node_hit file body))
  (IHe : forall t, els = Some t -> emits (resolve_node file t) (node_hit file t)) :
  emits (fun c => let c := resolve_node file body (resolve_pipe file line p c) in
                  match els with Some e => resolve_node file e c | None => c end)
    (fun o e => (exists o', o = 0%nat :: o' /\ pipe_hit (ref file line) p o' e)
      \/ (exists o', o = 1%nat :: o' /\ node_hit file body o' e)
      \/ (exists o' t, o = 2%nat :: o' /\ els = Some t /\ node_hit file t o' e)).
Proof.
  assert (E3 : emits (fun c => match els with Some e => resolve_node file e c | None => c end)
     (fun o e => (exists o', o = 2%nat :: o' /\ exists t, els = Some t /\ node_hit file t o' e) \/ False)).
  { destruct els as [t|].
    - eapply emits_ext; [| |apply (emits_cons 2%nat (resolve_node file t) _ (fun c => c) _ (IHe t eq_refl) emits_nil)].
      + reflexivity.
      + intros o e. split; (intros [(o' & -> & H)|[]]; left; exists o'; split; [reflexivity|]); [eauto|].
        destruct H as (t' & X & H). injection X as <-. exact H.
      + intros o e [].
    - eapply emits_ext; [| |exact emits_nil]; [reflexivity|]. intros o e. split; [intros []|].
      intros [(o' & _ & t & X & _)|[]]. discriminate. }
  assert (E2 := emits_cons 1%nat _ _ _ _ IHb E3). cbv beta in E2.
  assert (H2 : forall o e, ((exists o', o = 2%nat :: o' /\ exists t, els = Some t /\ node_hit file t o' e) \/ False) ->
    exists j o', o = j :: o' /\ (1 < j)%nat).
  { intros o e [(o' & -> & _)|[]]. exists 2%nat, o'. split; [reflexivity|lia]. }
  specialize (E2 H2). clear H2.
  eapply emits_ext; [| |apply (emits_cons 0%nat _ _ _ _ (emits_pipe file line p) E2)].
  - reflexivity.
  - intros o e. split.
    + intros [H|[H|[(o' & -> & t & X & H)|[]]]]; [auto|auto|]. right; right. eauto.
    + intros [H|[H|(o' & t & -> & X & H)]]; [auto|auto|]. right; right; left. eauto.
  - intros o e [(o' & -> & _)|[(o' & -> & _)|[]]].
    + exists 1%nat, o'. split; [reflexivity|lia].
    + exists 2%nat, o'. split; [reflexivity|lia].
Qed.
Lemma emits_single file line p f P : (forall c, f c = resolve_pipe file line p c) ->
  (forall o e, P o e <-> exists o', o = 0%nat :: o' /\ pipe_hit (ref file line) p o' e) -> emits f P.
Proof.
  intros F H. eapply emits_ext; [| |apply (emits_cons 0%nat _ _ (fun c => c) _ (emits_pipe file line p) emits_nil)].
  - intros c _. symmetry. apply F.
  - intros o e. rewrite H. split; [intros [X|[]]; exact X|auto].
  - intros o e [].
Qed.
Ltac node_path := 
  match goal with
  | H : in_node _ _ _ _ |- _ => inversion H; subst; clear H
  end.
Theorem emits_node file t : emits (resolve_node file t) (node_hit file t).
Proof.
  induction t as [l IH|l p|l p b e IHb IHe|l p b e IHb IHe|l p b e IHb IHe|l p|] using tnode_rec'; cbn [resolve_node].
  - eapply emits_ext; [| |apply (emits_fold (fun t c => resolve_node file t c) (node_hit file) l IH)]; [reflexivity|].
    intros o e. rewrite node_hit_iff. split.
    + intros (i & t & o' & E & -> & H). apply node_hit_iff in H as (o1 & o2 & line & p & -> & N & H).
      exists (i :: o1), o2, line, p. split; [reflexivity|]. split; [eapply IN_list; eauto|exact H].
    + intros (o1 & o2 & line & p & -> & N & H). node_path. do 2 eexists. eexists. split; [eassumption|]. split; [reflexivity|].
      apply node_hit_iff. do 4 eexists. eauto.
  - apply (emits_single file l p); [reflexivity|]. intros o e. rewrite node_hit_iff. split.
    + intros (o1 & o2 & line & q & -> & N & H). node_path. exists o2. auto.
    + intros (o' & -> & H). exists [0%nat], o', l, p. split; [reflexivity|]. split; [constructor|exact H].
  - eapply emits_ext; [| |apply (emits_branch file l p b e IHb IHe)]; [reflexivity|].
    intros o x. rewrite node_hit_iff. split.
    + intros [(o' & -> & H)|[(o' & -> & H)|(o' & t & -> & -> & H)]].
      * exists [0%nat], o', l, p. split; [reflexivity|]. split; [constructor|exact H].
      * apply node_hit_iff in H as (o1 & o2 & line & q & -> & N & H). exists (1%nat :: o1), o2, line, q.
        split; [reflexivity|]. split; [constructor; exact N|exact H].
      * apply node_hit_iff in H as (o1 & o2 & line & q & -> & N & H). exists (2%nat :: o1), o2, line, q.
        split; [reflexivity|]. split; [constructor; exact N|exact H].
    + intros (o1 & o2 & line & q & -> & N & H). node_path.
      * left. eexists; split; [reflexivity|exact H].
      * right; left. eexists; split; [reflexivity|]. apply node_hit_iff. do 4 eexists. eauto.
      * right; right. do 2 eexists; split; [reflexivity|]. split; [reflexivity|]. apply node_hit_iff. do 4 eexists. eauto.
  - eapply emits_ext; [| |apply (emits_branch file l p b e IHb IHe)]; [reflexivity|].
    intros o x. rewrite node_hit_iff. split.
    + intros [(o' & -> & H)|[(o' & -> & H)|(o' & t & -> & -> & H)]].
      * exists [0%nat], o', l, p. split; [reflexivity|]. split; [constructor|exact H].
      * apply node_hit_iff in H as (o1 & o2 & line & q & -> & N & H). exists (1%nat :: o1), o2, line, q.
        split; [reflexivity|]. split; [constructor; exact N|exact H].
      * apply node_hit_iff in H as (o1 & o2 & line & q & -> & N & H). exists (2%nat :: o1), o2, line, q.
        split; [reflexivity|]. split; [constructor; exact N|exact H].
    + intros (o1 & o2 & line & q & -> & N & H). node_path.
      * left. eexists; split; [reflexivity|exact H].
      * right; left. eexists; split; [reflexivity|]. apply node_hit_iff. do 4 eexists. eauto.
      * right; right. do 2 eexists; split; [reflexivity|]. split; [reflexivity|]. apply node_hit_iff. do 4 eexists. eauto.
  - eapply emits_ext; [| |apply (emits_branch file l p b e IHb IHe)]; [reflexivity|].
    intros o x. rewrite node_hit_iff. split.
    + intros [(o' & -> & H)|[(o' & -> & H)|(o' & t & -> & -> & H)]].
      * exists [0%nat], o', l, p. split; [reflexivity|]. split; [constructor|exact H].
      * apply node_hit_iff in H as (o1 & o2 & line & q & -> & N & H). exists (1%nat :: o1), o2, line, q.
        split; [reflexivity|]. split; [constructor; exact N|exact H].
      * apply node_hit_iff in H as (o1 & o2 & line & q & -> & N & H). exists (2%nat :: o1), o2, line, q.
        split; [reflexivity|]. split; [constructor; exact N|exact H].
    + intros (o1 & o2 & line & q & -> & N & H). node_path.
      * left. eexists; split; [reflexivity|exact H].
      * right; left. eexists; split; [reflexivity|]. apply node_hit_iff. do 4 eexists. eauto.
      * right; right. do 2 eexists; split; [reflexivity|]. split; [reflexivity|]. apply node_hit_iff. do 4 eexists. eauto.
  - destruct p as [p|].
    + apply (emits_single file l p); [reflexivity|]. intros o e. rewrite node_hit_iff. split.
      * intros (o1 & o2 & line & q & -> & N & H). node_path. exists o2. auto.
      * intros (o' & -> & H). exists [0%nat], o', l, p. split; [reflexivity|]. split; [constructor|exact H].
    + eapply emits_ext; [| |exact emits_nil]; [reflexivity|]. intros o e. rewrite node_hit_iff. split; [intros []|].
      intros (o1 & o2 & line & q & _ & N & _). inversion N.
  - eapply emits_ext; [| |exact emits_nil]; [reflexivity|]. intros o e. rewrite node_hit_iff. split; [intros []|].
    intros (o1 & o2 & line & q & _ & N & _). inversion N.
Qed.
End Emits.

(** visiting a literal does nothing, see XtModel.cmds_loop *)
Lemma literal_silent line args n a s c : literal a s -> resolve_arg line args n a c = c.
Proof.
  intros L. revert args n. induction L as [s|a s L IH]; intros args n; [reflexivity|].
  cbn [resolve_arg cmds_loop args_loop]. apply IH.
Qed.
