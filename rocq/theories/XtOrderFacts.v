(** Extraction does not depend on the order of templates with different messages (C73). *)
From Coq Require Import Lia Permutation Sorted.
From Verif Require Import GoStr GoStrFacts GoMap GoMapFacts FileModel FileFacts FileSpec PoModel PoSpec PoCatalogFacts PoLoadFacts SortFacts
  XtModel XtSpec XtKeyFacts XtFacts XtMergeFacts XtRunFacts XtRepSpec.
Local Open Scope Z_scope.

(** ** Adding messages: the entry of a key depends on the messages with that key *)
Definition at_key (k : bytes) (l : list entry) : list entry := filter (fun e => beq (e_key e) k) l.
Lemma add_at_key k l : forall c c', mget k (c_entries c) = mget k (c_entries c') ->
  mget k (c_entries (fold_left ctx_add l c)) = mget k (c_entries (fold_left ctx_add (at_key k l) c')).
Proof.
  induction l as [|e l IH]; intros c c' E; cbn [fold_left at_key filter]; [exact E|]. fold (at_key k l).
  destruct (beq_spec (e_key e) k) as [<-|N].
  - cbn [fold_left]. apply IH. unfold ctx_add. rewrite <- E. destruct (mget (e_key e) (c_entries c)) as [pre|] eqn:G.
    + destruct (negb _); unfold say; cbn [c_entries]; [rewrite G; exact E|]. rewrite !mget_put_same. reflexivity.
    + cbn [c_entries]. rewrite !mget_put_same. reflexivity.
  - apply IH. rewrite <- E. unfold ctx_add. destruct (mget (e_key e) (c_entries c)) as [pre|].
    + destruct (negb _); unfold say; cbn [c_entries]; [reflexivity|]. apply mget_put_other. congruence.
    + cbn [c_entries]. apply mget_put_other. congruence.
Qed.
Lemma at_key_app k a b : at_key k (a ++ b) = at_key k a ++ at_key k b.
Proof. apply filter_app. Qed.
Lemma at_key_concat k ls : at_key k (concat ls) = concat (map (at_key k) ls).
Proof. induction ls as [|l ls IH]; [reflexivity|]. cbn [concat map]. rewrite at_key_app, IH. reflexivity. Qed.
Lemma at_key_nil k l : at_key k l = [] <-> forall e, In e l -> e_key e <> k.
Proof.
  induction l as [|x l IH]; cbn [at_key filter]; [split; [intros _ e []|reflexivity]|]. fold (at_key k l).
  destruct (beq_spec (e_key x) k) as [E|E].
  - split; [discriminate|]. intros H. exfalso. exact (H x (or_introl eq_refl) E).
  - rewrite IH. split; [intros H e [<-|I]; auto|]. intros H e I. apply H. right; exact I.
Qed.

(** ** Permuting lists of which at most one is not empty *)
Definition sole {X} (ls : list (list X)) : Prop := ForallOrdPairs (fun a b => a = [] \/ b = []) ls.
Lemma sole_perm {X} (l1 l2 : list (list X)) : Permutation l1 l2 -> sole l1 -> sole l2.
Proof.
  intros P. induction P as [|x l l' P IH|x y l|l l' l'' P1 IH1 P2 IH2]; intros S0.
  - exact S0.
  - inversion S0 as [|? ? F S1]; subst. constructor; [|apply IH, S1]. rewrite Forall_forall in *. intros z Hz.
    apply F. eapply Permutation_in; [symmetry; exact P|exact Hz].
  - inversion S0 as [|? ? F S1]; subst. inversion S1 as [|? ? F' S2]; subst.
    inversion F as [|? ? Fx Fl]; subst. constructor; [|constructor; assumption].
    constructor; [tauto|exact F'].
  - auto.
Qed.
Lemma sole_concat {X} (l1 l2 : list (list X)) : Permutation l1 l2 -> sole l1 -> concat l1 = concat l2.
Proof.
  intros P. induction P as [|x l l' P IH|x y l|l l' l'' P1 IH1 P2 IH2]; intros S0.
  - reflexivity.
  - cbn [concat]. inversion S0; subst. rewrite IH; auto.
  - cbn [concat]. inversion S0 as [|? ? F S1]; subst. inversion F as [|? ? Fx Fl]; subst.
    destruct Fx as [-> | ->]; rewrite ?app_nil_r; reflexivity.
  - rewrite IH1 by exact S0. apply IH2. eapply sole_perm; eauto.
Qed.

(** ** Messages of templates as lists *)
Section Lists.
Variable kws : list keyword.
(** [es]: the messages of template [t] of [file], in order *)
Definition listing (file : bytes) (t : tnode) (es : list entry) : Prop :=
  (forall c, c_kws c = kws -> resolve_node file t c = fold_left ctx_add es c)
  /\ forall e, In e es -> exists o k, message file kws t o k e /\ gapless k.
Lemma listing_ex file t : exists es, listing file t es.
Proof.
  destruct (emits_node kws file t) as (l & L1 & _ & L3). exists (map snd l). split; [exact L1|].
  intros e I. apply in_map_iff in I as ([o x] & X & I). cbn [snd] in X. subst x. apply L3 in I as (k & M & G). eauto.
Qed.
Lemma listings_ex file ts : exists ess, Forall2 (listing file) ts ess.
Proof.
  induction ts as [|t ts (ess & IH)]; [exists []; constructor|]. destruct (listing_ex file t) as (es & H).
  exists (es :: ess). constructor; assumption.
Qed.
Lemma listings_fold file ts ess : Forall2 (listing file) ts ess -> forall c, c_kws c = kws ->
  fold_left (fun c t => resolve_node file t c) ts c = fold_left ctx_add (concat ess) c.
Proof.
  intros F. induction F as [|t es ts ess [H _] F IH]; intros c Hc; [reflexivity|]. cbn [fold_left concat].
  rewrite fold_left_app, <- H by exact Hc. apply IH. rewrite H by exact Hc. rewrite fold_add_kws. exact Hc.
Qed.
Lemma listings_sole file ts ess k : apart file kws ts -> plain_messages file kws ts ->
  Forall2 (listing file) ts ess -> sole (map (at_key k) ess).
Proof.
  intros A Pm F. revert A Pm. induction F as [|t es ts ess [_ H] F IH]; intros A Pm; [constructor|]. cbn [map]. constructor.
  - rewrite Forall_forall. intros x Hx. apply in_map_iff in Hx as (es' & <- & I).
    destruct (at_key k es) as [|e1 r1] eqn:E1; [left; reflexivity|]. destruct (at_key k es') as [|e2 r2] eqn:E2; [right; reflexivity|]. exfalso.
    assert (I1 : In e1 es /\ e_key e1 = k).
    { assert (X : In e1 (at_key k es)) by (rewrite E1; left; reflexivity). apply filter_In in X as [X Y]. apply beq_eq in Y. auto. }
    assert (I2 : In e2 es' /\ e_key e2 = k).
    { assert (X : In e2 (at_key k es')) by (rewrite E2; left; reflexivity). apply filter_In in X as [X Y]. apply beq_eq in Y. auto. }
    destruct I1 as [I1 K1]. destruct I2 as [I2 K2]. destruct (H e1 I1) as (o1 & k1 & M1 & _).
    assert (X : exists j t', nth_error ts j = Some t' /\ listing file t' es').
    { clear - F I. induction F as [|t0 es0 ts ess L F IH]; [destruct I|]. destruct I as [->|I].
      - exists 0%nat, t0. split; [reflexivity|exact L].
      - destruct (IH I) as (j & t' & J & L'). exists (S j), t'. auto. }
    destruct X as (j & t' & J & (_ & L')). destruct (L' e2 I2) as (o2 & k2 & M2 & _).
    assert (T' : In t' (t :: ts)) by (right; apply nth_error_In with (n := j), J).
    destruct (Pm t o1 k1 e1 (or_introl eq_refl) M1) as (_ & P1 & _). destruct (Pm t' o2 k2 e2 T' M2) as (_ & P2 & _).
    apply (A 0%nat (S j) t t' o1 o2 k1 k2 e1 e2 ltac:(discriminate) eq_refl J M1 M2).
    apply key_inj; [exact P1|right; exact P2|]. unfold e_key in *. congruence.
  - apply IH.
    + intros i j t1 t2 o1 o2 k1 k2 e1 e2 Hij N1 N2. apply (A (S i) (S j)); auto.
    + intros t' o k' e I. apply Pm. right; exact I.
Qed.
Lemma listings_perm file ts ts' ess : Permutation ts ts' -> apart file kws ts -> plain_messages file kws ts ->
  Forall2 (listing file) ts ess ->
  exists ess', Forall2 (listing file) ts' ess' /\ forall k, at_key k (concat ess) = at_key k (concat ess').
Proof.
  intros P A Pm F. destruct (Permutation_Forall2 P F) as (es2 & P2 & F2). exists es2. split; [exact F2|].
  intros k. rewrite !at_key_concat. apply sole_concat; [apply Permutation_map, P2|]. eapply listings_sole; eauto.
Qed.

(** ** All files *)
(** messages of tidy files *)
Definition sourced (files : list bytes) (e : entry) : Prop :=
  exists file line, In file files /\ plain_name file /\ 0 <= line < 1000000000
    /\ (e_cmts e = [B "#: " ++ ref file line; B "#, go-format"] \/ e_cmts e = [B "#: " ++ ref file line])
    /\ e_id e <> [] /\ forall s, e_ctxt e <> B "#:" ++ s.
Lemma listing_sourced file ts t es e : tidy file kws ts -> In t ts -> listing file t es -> In e es -> sourced [file] e.
Proof.
  intros (Pn & _ & Lb & Pm) It (_ & H) I. destruct (H e I) as (o & k & M & _).
  destruct (Pm t o k e It M) as (P1 & _ & P3).
  destruct M as (o1 & o2 & i & line & p & args & n & _ & N & _ & _ & (_ & D)).
  exists file, line. split; [left; reflexivity|]. split; [exact Pn|]. split; [exact (Lb t o1 line p It N)|]. split; [|auto].
  destruct (d_cmts _ _ _ _ _ D) as [[_ ->]|(_ & _ & ->)]; auto.
Qed.
Lemma files_perm (tr1 tr2 : bytes -> list tnode) files :
  (forall n, In n files -> Permutation (tr1 n) (tr2 n) /\ tidy n kws (tr1 n)) ->
  exists l1 l2,
    (forall c, c_kws c = kws -> fold_left (fun c n => fold_left (fun c t => resolve_node n t c) (tr1 n) c) files c = fold_left ctx_add l1 c)
    /\ (forall c, c_kws c = kws -> fold_left (fun c n => fold_left (fun c t => resolve_node n t c) (tr2 n) c) files c = fold_left ctx_add l2 c)
    /\ (forall k, at_key k l1 = at_key k l2)
    /\ forall e, In e l1 -> sourced files e.
Proof.
  induction files as [|n files IH]; intros H.
  - exists [], []. split; [reflexivity|]. split; [reflexivity|]. split; [reflexivity|intros e []].
  - destruct IH as (l1 & l2 & E1 & E2 & K & Sr); [intros m Hm; apply H; right; exact Hm|].
    destruct (H n (or_introl eq_refl)) as (P & T). pose proof T as (_ & A & _ & Pm).
    destruct (listings_ex n (tr1 n)) as (ess & F). destruct (listings_perm n _ _ ess P A Pm F) as (ess' & F' & K').
    exists (concat ess ++ l1), (concat ess' ++ l2). repeat split.
    + intros c Hc. cbn [fold_left]. rewrite (listings_fold n _ _ F c Hc), fold_left_app. apply E1. rewrite fold_add_kws. exact Hc.
    + intros c Hc. cbn [fold_left]. rewrite (listings_fold n _ _ F' c Hc), fold_left_app. apply E2. rewrite fold_add_kws. exact Hc.
    + intros k. rewrite !at_key_app, K, K'. reflexivity.
    + intros e I. apply in_app_or in I as [I|I].
      * apply in_concat in I as (es & I1 & I2).
        assert (X : exists t, In t (tr1 n) /\ listing n t es).
        { clear - F I1. induction F as [|t0 es0 ts ess L F IH]; [destruct I1|]. destruct I1 as [->|I1].
          - exists t0. split; [left; reflexivity|exact L].
          - destruct (IH I1) as (t & J & L'). exists t. split; [right; exact J|exact L']. }
        destruct X as (t & It & L). destruct (listing_sourced n _ t es e T It L I2) as (f & line & [<-|[]] & X).
        exists n, line. split; [left; reflexivity|exact X].
      * destruct (Sr e I) as (f & line & J & X). exists f, line. split; [right; exact J|exact X].
Qed.
End Lists.

(** ** Sort keys of extracted messages *)
Definition blk (b : bytes * Z) : bytes := B "#:" ++ fst b ++ pad10 (dec_Z (snd b)).
Definition fine_block (b : bytes * Z) : Prop := plain_name (fst b) /\ 0 <= snd b < 1000000000.
Lemma dec_Z_N z : 0 <= z -> dec_Z z = dec (Z.to_N z).
Proof. destruct z; intros H; [reflexivity|reflexivity|lia]. Qed.
Lemma blk_line file line : plain_name file -> 0 <= line < 1000000000 ->
  line_string_1 (B "#: " ++ ref file line) = blk (file, line).
Proof.
  intros (P1 & P2 & P3) L. change (B "#: " ++ ref file line) with (B "#:" ++ [] ++ SP :: file ++ ":"%char :: dec_Z line).
  rewrite line_string_fields, fields_sep by auto. rewrite fields_sep by auto. rewrite fields_nil, (fields_plain file) by assumption.
  rewrite (dec_Z_N line) by lia. destruct (dec_no_sep (Z.to_N line)) as [N1 N2]. rewrite (fields_plain (dec _)) by assumption.
  unfold blk. cbn [app map concat fst snd]. rewrite app_nil_r. rewrite (dec_Z_N line) by lia.
  assert (E0 : sort_field [] = []) by reflexivity. rewrite E0. cbn [app].
  assert (E1 : sort_field file = file).
  { unfold sort_field. destruct (parse_int file) as [z|] eqn:E; [|reflexivity]. apply parse_int_iff in E. destruct (P3 z E). }
  rewrite E1. assert (E2 : sort_field (dec (Z.to_N line)) = pad10 (dec (Z.to_N line))).
  { unfold sort_field. rewrite parse_int_dec by (unfold int64_max; lia). f_equal. rewrite dec_Z_N by lia. rewrite Z2N.id by lia. reflexivity. }
  rewrite E2. reflexivity.
Qed.
Lemma pad10_shape z : 0 <= z < 1000000000 -> exists u, pad10 (dec_Z z) = SP :: u /\ length u = 9%nat.
Proof.
  intros H. rewrite dec_Z_N by lia.
  assert (L : (length (dec (Z.to_N z)) <= 9)%nat) by (apply (dec_len 8); change (10 ^ N.of_nat 9)%N with 1000000000%N; lia).
  unfold pad10. destruct (10 - length (dec (Z.to_N z)))%nat as [|k] eqn:E; [lia|]. cbn [repeat app]. eexists. split; [reflexivity|].
  rewrite app_length, repeat_length. lia.
Qed.
Lemma cut_at (x : ascii) a b a' b' : ~ In x a -> ~ In x a' -> a ++ x :: b = a' ++ x :: b' -> a = a' /\ b = b'.
Proof.
  revert a'. induction a as [|y a IH]; intros a' N N' E; destruct a' as [|y' a']; cbn [app] in E.
  - split; congruence.
  - exfalso. apply N'. left. congruence.
  - exfalso. apply N. left. congruence.
  - injection E as -> E. apply IH in E as [-> ->]; [auto| |]; intros I; [apply N|apply N']; right; exact I.
Qed.
Lemma blocks_decode bs1 : forall bs2 K1 K2, (forall b, In b bs1 -> fine_block b) -> (forall b, In b bs2 -> fine_block b) ->
  (forall s, K1 <> B "#:" ++ s) -> (forall s, K2 <> B "#:" ++ s) ->
  concat (map blk bs1) ++ K1 = concat (map blk bs2) ++ K2 -> K1 = K2.
Proof.
  induction bs1 as [|[n1 z1] bs1 IH]; intros bs2 K1 K2 F1 F2 N1 N2 E; destruct bs2 as [|[n2 z2] bs2]; cbn [map concat app] in E.
  - exact E.
  - exfalso. apply (N1 ((n2 ++ pad10 (dec_Z z2)) ++ concat (map blk bs2) ++ K2)). rewrite E. unfold blk. cbn [fst snd]. rewrite <- !app_assoc. reflexivity.
  - exfalso. apply (N2 ((n1 ++ pad10 (dec_Z z1)) ++ concat (map blk bs1) ++ K1)). rewrite <- E. unfold blk. cbn [fst snd]. rewrite <- !app_assoc. reflexivity.
  - destruct (F1 _ (or_introl eq_refl)) as [(P1 & _) L1]. destruct (F2 _ (or_introl eq_refl)) as [(P2 & _) L2]. cbn [fst snd] in *.
    change (blk (n1, z1)) with (B "#:" ++ n1 ++ pad10 (dec_Z z1)) in E. change (blk (n2, z2)) with (B "#:" ++ n2 ++ pad10 (dec_Z z2)) in E.
    rewrite <- !app_assoc in E. apply app_inv_head in E.
    destruct (pad10_shape z1 L1) as (u1 & E1 & U1). rewrite E1 in E. destruct (pad10_shape z2 L2) as (u2 & E2 & U2). rewrite E2 in E. cbn [app] in E.
    apply cut_at in E as [_ E]; [|assumption|assumption].
    assert (E' : concat (map blk bs1) ++ K1 = concat (map blk bs2) ++ K2).
    { apply (f_equal (skipn 9)) in E. rewrite !skipn_app, U1, U2 in E. rewrite (skipn_all2 u1), (skipn_all2 u2) in E by lia. exact E. }
    eapply IH; [| | | |exact E']; auto; intros b I; [apply F1|apply F2]; right; exact I.
Qed.
Lemma merged_blocks files l k m : (forall e, In e l -> sourced files e) -> merged l k m ->
  e_key m = k /\ e_id m <> [] /\ (forall s, e_ctxt m <> B "#:" ++ s)
  /\ exists b bs, (forall x, In x (b :: bs) -> fine_block x) /\ line_string m = concat (map blk (b :: bs)).
Proof.
  intros H (e & F & ->). pose proof (first_in _ _ _ F) as [I K]. destruct (H e I) as (f & li & _ & _ & _ & _ & X1 & X2).
  split; [exact K|]. split; [exact X1|]. split; [exact X2|].
  assert (A : forall es, (forall x, In x es -> sourced files x) -> exists bs, length bs = length es /\ (forall x, In x bs -> fine_block x)
    /\ line_string (with_cmts e (concat (map e_cmts es))) = concat (map blk bs)).
  { clear. induction es as [|x es IH]; intros H.
    - exists []. split; [reflexivity|]. split; [intros x []|reflexivity].
    - destruct IH as (bs & Lb & Fb & E); [intros y Hy; apply H; right; exact Hy|].
      destruct (H x (or_introl eq_refl)) as (f & li & _ & P & L & C & _).
      exists ((f, li) :: bs). split; [cbn [length]; congruence|]. split; [intros y [<-|Hy]; [split; assumption|apply Fb, Hy]|].
      cbn [map concat]. unfold line_string, with_cmts in *. cbn [e_cmts] in *. rewrite map_app, concat_app, E.
      rewrite <- blk_line by assumption. f_equal. destruct C as [-> | ->]; cbn [map concat].
      + change (has_prefix (B "#:") (B "#: " ++ ref f li)) with true. cbv iota. rewrite !app_nil_r. reflexivity.
      + change (has_prefix (B "#:") (B "#: " ++ ref f li)) with true. cbv iota. rewrite app_nil_r. reflexivity. }
  destruct (A (alike e l)) as (bs & Lb & Fb & E).
  { intros x Hx. apply H. apply filter_In in Hx as [Hx _]. exact Hx. }
  destruct bs as [|b bs]; [|exists b, bs; auto].
  exfalso. assert (In e (alike e l)) by (apply filter_In; rewrite beq_refl, Bool.eqb_reflx; auto).
  destruct (alike e l); [assumption|discriminate].
Qed.

(** ** The template file *)
Lemma merged_at_key (kws : list keyword) l1 l2 : (forall k, at_key k l1 = at_key k l2) -> forall k m, merged l1 k m <-> merged l2 k m.
Proof.
  intros H k m. rewrite <- (m_entries _ _ (add_merges kws l1)), <- (m_entries _ _ (add_merges kws l2)).
  rewrite (add_at_key k l1 (new_ctx kws) (new_ctx kws)), (add_at_key k l2 (new_ctx kws) (new_ctx kws)) by reflexivity. rewrite H. reflexivity.
Qed.
Theorem pots_equal isp kws now p files l1 l2 f1 f2 out1 out2 :
  (forall k, at_key k l1 = at_key k l2) -> (forall e, In e l1 -> sourced files e) ->
  makes_pot now p (fold_left ctx_add l1 (new_ctx kws)) f1 -> makes_pot now p (fold_left ctx_add l2 (new_ctx kws)) f2 ->
  saves_pot isp f1 out1 -> saves_pot isp f2 out2 -> out1 = out2.
Proof.
  intros K Sr M1 M2 S1 S2.
  pose proof (add_merges kws l1) as G1. pose proof (add_merges kws l2) as G2.
  destruct (pot_entries now p l1 _ f1 G1 M1) as [F1 E1]. destruct (pot_entries now p l2 _ f2 G2 M2) as [F2 E2].
  pose proof (merged_at_key kws l1 l2 K) as Mk.
  assert (Hp : c_has_plural (fold_left ctx_add l1 (new_ctx kws)) = c_has_plural (fold_left ctx_add l2 (new_ctx kws))).
  { apply Bool.eq_true_iff_eq. rewrite (m_plural _ _ G1), (m_plural _ _ G2).
    split; intros (k & m & X & Y); exists k, m; (split; [|exact Y]).
    - apply (m_entries _ _ G2), Mk, (m_entries _ _ G1), X.
    - apply (m_entries _ _ G1), Mk, (m_entries _ _ G2), X. }
  assert (Hk : (forall x, In x l1 -> e_key x <> key [] []) <-> (forall x, In x l2 -> e_key x <> key [] [])).
  { rewrite <- !at_key_nil, K. reflexivity. }
  assert (Eq : forall k, mget k (f_entries f1) = mget k (f_entries f2)).
  { intros k. assert (X : forall m, mget k (f_entries f1) = Some m <-> mget k (f_entries f2) = Some m).
    { intros m. rewrite E1, E2, Mk, Hk, Hp. reflexivity. }
    destruct (mget k (f_entries f1)) as [m|]; [symmetry; apply X; reflexivity|].
    destruct (mget k (f_entries f2)) as [m|]; [exfalso; specialize (proj2 (X m) eq_refl); discriminate|reflexivity]. }
  pose proof (filed_same f1 f2 F1 F2 Eq) as P.
  destruct S1 as (s1 & (P1 & O1) & ->). destruct S2 as (s2 & (P2 & O2) & ->). f_equal. f_equal.
  apply sorted_unique; [| |exact O1|exact O2].
  { etransitivity; [exact P1|]. etransitivity; [exact P|symmetry; exact P2]. }
  (* distinct sort keys *)
  assert (Sk : forall x y, In x s1 -> In y s1 -> sort_key x = sort_key y -> x = y).
  { assert (V : forall x, In x s1 -> mget (e_key x) (f_entries f1) = Some x).
    { intros x I. apply (filed_in _ _ F1). eapply Permutation_in; [exact P1|exact I]. }
    assert (Sh : forall x, In x s1 -> e_key x = key [] [] /\ sort_key x = [] \/
      exists b bs, (forall y, In y (b :: bs) -> fine_block y) /\ sort_key x = concat (map blk (b :: bs)) ++ e_key x /\ forall s, e_key x <> B "#:" ++ s).
    { intros x I. apply V in I. apply E1 in I as [I|(_ & Kx & ->)]; [|left; auto].
      right. destruct (merged_blocks files l1 _ x Sr I) as (_ & X1 & X2 & b & bs & Fb & L). exists b, bs. split; [exact Fb|].
      unfold sort_key, is_header. destruct (e_id x) as [|c t] eqn:Ei; [congruence|]. cbn [is_empty]. rewrite L. split; [reflexivity|].
      intros s Q. unfold e_key, key in Q. destruct (e_ctxt x) as [|c1 [|c2 r]] eqn:Ec; cbn in Q.
      - discriminate.
      - injection Q as -> Q. discriminate.
      - injection Q as -> -> Q. apply (X2 r). reflexivity. }
    intros x y Ix Iy E. enough (Q : e_key x = e_key y) by (pose proof (V x Ix) as Vx; rewrite Q, (V y Iy) in Vx; congruence).
    destruct (Sh x Ix) as [[Kx Sx]|(b & bs & Fb & Sx & Nx)]; destruct (Sh y Iy) as [[Ky Sy]|(b' & bs' & Fb' & Sy & Ny)].
    - congruence.
    - exfalso. rewrite Sx, Sy in E. discriminate.
    - exfalso. rewrite Sx, Sy in E. discriminate.
    - rewrite Sx, Sy in E. eapply blocks_decode; [exact Fb|exact Fb'|exact Nx|exact Ny|exact E]. }
  assert (N : NoDup s1).
  { apply (Permutation_NoDup (l := vals (f_entries f1))); [symmetry; exact P1|]. apply filed_nodup, F1. }
  clear - Sk N. induction N as [|x l Nx N IH]; [constructor|]. cbn [map]. constructor.
  - intros I. apply in_map_iff in I as (y & E & I). apply Nx. rewrite (Sk x y); [exact I|left; reflexivity|right; exact I|congruence].
  - apply IH. intros a b Ia Ib. apply Sk; right; assumption.
Qed.

(** ** Runs *)
Section Runs.
Variable isp : N -> bool.
Variable globs : fs -> bytes -> option (list bytes).
Variable creatable : bytes -> bool.
Variables P1 P2 : list bytes -> bytes -> bytes -> bytes -> option (list tnode).
Variable letter number : N -> bool.
Hypothesis Same : same_templates P1 P2.
Lemma resolve_same p names w files : forall failed c c',
  option_map snd (resolve_files P1 letter number p names w files failed c) = option_map snd (resolve_files P2 letter number p names w files failed c').
Proof.
  induction files as [|n files IH]; intros failed c c'; cbn [resolve_files]; [reflexivity|]. unfold resolve_file.
  destruct (w n) as [src|]; [|apply IH]. destruct (forallb _ _); [|reflexivity].
  destruct (Same (names ++ scan_func_names src) (p_left p) (p_right p) src) as [[-> ->]|(a & b & -> & -> & _)]; apply IH.
Qed.
Theorem runs_same now p w o1 w1 out1 o2 w2 out2 :
  (forall kws files n src ts, spells (p_keyword p) kws -> globs (opened p w) (p_input p) = Some files -> In n files ->
     opened p w n = Some src ->
     P1 ((map k_name kws ++ function_names (p_function p)) ++ scan_func_names src) (p_left p) (p_right p) src = Some ts -> tidy n kws ts) ->
  runs isp globs creatable P1 letter number now p w o1 w1 out1 -> runs isp globs creatable P2 letter number now p w o2 w2 out2 ->
  o1 = o2 /\ w1 = w2 /\ out1 = out2.
Proof.
  intros T R1 R2.
  inversion R1 as [K1|k1 K1 T1 C1|k1 v1 K1 O1 G1|k1 v1 fs1 K1 O1 G1 F1|k1 v1 fs1 c1 K1 O1 G1 F1|k1 v1 fs1 c1 f1 t1 K1 O1 G1 F1 M1 S1]; subst;
  inversion R2 as [K2|k2 K2 T2 C2|k2 v2 K2 O2 G2|k2 v2 fs2 K2 O2 G2 F2|k2 v2 fs2 c2 K2 O2 G2 F2|k2 v2 fs2 c2 f2 t2 K2 O2 G2 F2 M2 S2]; subst;
  try congruence; auto;
  try (destruct O1 as [(? & ? & ?)|(? & ?)]; congruence); try (destruct O2 as [(? & ? & ?)|(? & ?)]; congruence);
  apply opened_iff in O1; apply opened_iff in O2; subst; try congruence; auto;
  assert (k1 = k2) as <- by congruence; assert (fs1 = fs2) as <- by congruence;
  pose proof (resolve_same p (map k_name k1 ++ function_names (p_function p)) (opened p w) fs1 false (new_ctx k1) (new_ctx k1)) as Q;
  rewrite F1, F2 in Q; cbn [option_map snd] in Q; try discriminate Q; auto.
  clear Q. apply parse_keywords_iff in K1.
  apply files_ok in F1 as [E1 H1]. apply files_ok in F2 as [E2 H2].
  set (names := map k_name k1 ++ function_names (p_function p)) in *.
  destruct (files_perm k1 (trees P1 p names (opened p w)) (trees P2 p names (opened p w)) fs1) as (l1 & l2 & L1 & L2 & K & Sr).
  { intros n Hn. destruct (H1 n Hn) as (src & W & Q1). destruct (H2 n Hn) as (src' & W' & Q2).
    assert (src' = src) as -> by congruence. split.
    - destruct (Same (names ++ scan_func_names src) (p_left p) (p_right p) src) as [[X _]|(a & b & X1 & X2 & Pm)]; [congruence|].
      rewrite X1 in Q1. rewrite X2 in Q2. injection Q1 as <-. injection Q2 as <-. exact Pm.
    - eapply T; eauto. }
  rewrite (L1 (new_ctx k1) eq_refl) in E1. rewrite (L2 (new_ctx k1) eq_refl) in E2. subst c1 c2.
  assert (t1 = t2) as -> by (eapply pots_equal; eauto). auto.
Qed.
End Runs.
