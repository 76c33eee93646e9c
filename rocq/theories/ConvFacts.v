(** Proofs about chains of conversions. *)
From Coq Require Import List ZArith Ascii Lia Permutation.
From Verif Require Import GoStr GoStrFacts GoMap GoMapFacts FileModel FileSpec FormsFacts FileFacts PoModel PoSpec SortFacts MoModel MoSpec
  PoReadFacts PoSameFacts PoWriteFacts PoCatalogFacts PoLoadFacts MoFacts MoCatalogFacts CatFacts ConvSpec.
Import ListNotations.

Lemma strip_translated e : translated (strip e) <-> translated e.
Proof. reflexivity. Qed.
Lemma left_translated l e : translated (left_of l e) <-> translated e.
Proof. unfold left_of. destruct (existsb _ l); reflexivity. Qed.
Lemma left_agree l e : strip (left_of l e) = strip e.
Proof. unfold left_of. destruct (existsb _ l); reflexivity. Qed.
Lemma strip_ok e : po_ok e /\ mo_ok e /\ (e_id e = [] -> e_ctxt e = []) -> po_ok (strip e) /\ mo_ok (strip e) /\ (e_id (strip e) = [] -> e_ctxt (strip e) = []).
Proof. intros ((_ & P1 & P2) & M & H). split; [|split; [exact M|exact H]]. split; [intros c []|split; assumption]. Qed.
Lemma convertible_nonempty f : convertible f -> f_entries f <> [].
Proof. intros (_ & e & I & _) E. rewrite E in I. destruct I. Qed.
Lemma filed_mget f e : filed f -> In e (vals (f_entries f)) <-> mget (e_key e) (f_entries f) = Some e.
Proof. apply filed_in. Qed.
Lemma mget_in_vals k e f : mget k (f_entries f) = Some e -> In e (vals (f_entries f)).
Proof. intros E. apply mget_in in E. unfold vals. apply in_map_iff. exists (k, e). auto. Qed.
(** one conversion *)
Lemma step_po isp f out : filed f -> convertible f -> saves_po isp f out ->
  exists g, read_po out = PoOk g /\ filed g /\ convertible g /\ canon g
    /\ forall k e, mget k (f_entries g) = Some e <-> mget k (f_entries f) = Some e /\ translated e.
Proof.
  intros F C Sp. pose proof (convertible_nonempty f C) as Ne. destruct C as [Ok (x & Ix & Tx)].
  assert (Gp : forall e, In e (vals (f_entries f)) -> po_ok e) by (intros e H; apply Ok, H).
  destruct (po_round_trip isp f out F Gp Ne Sp) as (g & R & Fg & Q). exists g. split; [exact R|]. split; [exact Fg|]. split; [|split; [|exact Q]].
  - split.
    + intros e I. apply (filed_mget g e Fg) in I. apply Q in I as [I _]. apply Ok. apply (mget_in_vals _ _ _ I).
    + exists x. split; [|exact Tx]. apply (filed_mget g x Fg), Q. split; [|exact Tx]. apply (filed_mget f x F), Ix.
  - destruct Sp as (l & [P S] & ->).
    assert (Nl : l <> []) by (intros ->; apply Permutation_nil in P; unfold vals in P; apply map_eq_nil in P; congruence).
    rewrite (read_po_text isp l Nl) in R by (intros y Hy; apply Gp, (Permutation_in y P), Hy).
    assert (E : g = fold_left (addif false) l new_file) by congruence. rewrite E, fold_filter.
    apply canon_fold; [apply nodup_filter, (nodup_keys f l F P)|].
    intros e He. apply filter_In in He as [He _]. apply Ok, (Permutation_in e P), He.
Qed.
Lemma step_mo f out : filed f -> convertible f -> saves_mo f out -> (N.of_nat (length out) < 2 ^ 32)%N ->
  exists g, read_mo out = MoOk g /\ filed g /\ convertible g /\ canon g
    /\ forall k, mget k (f_entries g) = option_map strip (mget k (f_entries f)).
Proof.
  intros F C Sm L. destruct C as [Ok (x & Ix & Tx)].
  assert (Gm : forall e, In e (vals (f_entries f)) -> mo_ok e) by (intros e H; apply Ok, H).
  destruct (mo_round_trip f out F Gm Sm L) as (g & R & Fg & Q). exists g. split; [exact R|]. split; [exact Fg|]. split; [|split; [|exact Q]].
  - split.
    + intros e I. apply (filed_mget g e Fg) in I. rewrite Q in I. destruct (mget (e_key e) (f_entries f)) as [y|] eqn:E; [|discriminate].
      injection I as <-. apply strip_ok, Ok. apply (mget_in_vals _ _ _ E).
    + exists (strip x). split; [|exact Tx]. apply (filed_mget g _ Fg). rewrite Q. change (e_key (strip x)) with (e_key x).
      apply (filed_mget f x F) in Ix. rewrite Ix. reflexivity.
  - destruct Sm as (l & [P S] & ->).
    rewrite read_mo_bytes in R by (assumption || (intros y Hy; apply Gm, (Permutation_in y P), Hy)).
    assert (E : g = fold_left add_entry (map strip l) new_file) by congruence. rewrite E. apply canon_fold.
    + rewrite map_map. exact (nodup_keys f l F P).
    + intros e He. apply in_map_iff in He as (y & <- & Hy). cbn [strip e_id e_ctxt]. apply Ok, (Permutation_in y P), Hy.
Qed.
(** a chain of conversions *)
Theorem chain l f g : filed f -> convertible f -> converted l f g ->
  filed g /\ convertible g /\ (l <> [] -> canon g)
  /\ forall k e', mget k (f_entries g) = Some e' <->
       exists e, mget k (f_entries f) = Some e /\ (In AsPo l -> translated e) /\ e' = left_of l e.
Proof.
  intros F C H. revert F C. induction H as [f|isp f out g l h Sp R Cv IH|f out g l h Sm L R Cv IH]; intros F C.
  - split; [exact F|]. split; [exact C|]. split; [congruence|]. intros k e'. split.
    + intros E. exists e'. split; [exact E|]. split; [intros []|reflexivity].
    + intros (e & E & _ & ->). exact E.
  - destruct (step_po isp f out F C Sp) as (g' & R' & Fg & Cg & Ng & Q). rewrite R in R'. injection R' as <-.
    destruct (IH Fg Cg) as (Fh & Ch & Nh & K). split; [exact Fh|]. split; [exact Ch|]. split.
    { intros _. destruct l; [|apply Nh; discriminate]. inversion Cv; subst. exact Ng. }
    intros k e'. rewrite K. split.
    + intros (e & E & T & ->). apply Q in E as [E T']. exists e. split; [exact E|]. split; [intros _; exact T'|reflexivity].
    + intros (e & E & T & ->). exists e. split; [apply Q; split; [exact E|apply T; left; reflexivity]|]. split; [|reflexivity].
      intros _. apply T. left. reflexivity.
  - destruct (step_mo f out F C Sm L) as (g' & R' & Fg & Cg & Ng & Q). rewrite R in R'. injection R' as <-.
    destruct (IH Fg Cg) as (Fh & Ch & Nh & K). split; [exact Fh|]. split; [exact Ch|]. split.
    { intros _. destruct l; [|apply Nh; discriminate]. inversion Cv; subst. exact Ng. }
    intros k e'. rewrite K. split.
    + intros (e & E & T & ->). rewrite Q in E. destruct (mget k (f_entries f)) as [y|] eqn:Ey; [|discriminate]. injection E as <-.
      exists y. split; [reflexivity|]. split; [intros [X|X]; [discriminate X|exact (T X)]|]. unfold left_of. cbn [existsb orb]. destruct (existsb _ l); reflexivity.
    + intros (e & E & T & ->). exists (strip e). split; [rewrite Q, E; reflexivity|]. split; [intros X; apply (T (or_intror X))|].
      unfold left_of. cbn [existsb orb]. destruct (existsb _ l); reflexivity.
Qed.
(** a conversion never fails *)
Lemma chain_goes_on f isp out : filed f -> convertible f -> saves_po isp f out -> exists g, read_po out = PoOk g.
Proof. intros F C Sp. destruct (step_po isp f out F C Sp) as (g & R & _). eauto. Qed.
(** what the answers depend on *)
Lemma xn_same {A} (fmt : bytes -> list A -> bytes) f f' c i i2 n args : f_plural (init_plural f) = f_plural (init_plural f') ->
  agree (mget (key c i) (f_entries f)) (mget (key c i) (f_entries f')) ->
  fst (f_xn64 fmt f c i i2 n args) = fst (f_xn64 fmt f' c i i2 n args).
Proof.
  intros P A0. unfold agree in A0. unfold f_xn64.
  destruct (mget (key c i) (f_entries f)) as [x|], (mget (key c i) (f_entries f')) as [y|];
      cbn [option_map] in A0; try discriminate; [|reflexivity].
  assert (Q1 : e_str (strip x) = e_str (strip y)) by congruence. cbn [strip e_str] in Q1.
  assert (Q2 : e_id2 (strip x) = e_id2 (strip y)) by congruence. cbn [strip e_id2] in Q2.
  assert (Q3 : e_strn (strip x) = e_strn (strip y)) by congruence. cbn [strip e_strn] in Q3.
  rewrite Q1, Q2, Q3, P. destruct (f_plural (init_plural f')) as [p|]; [|destruct (_ && _); reflexivity].
  destruct (_ && _); [reflexivity|]. destruct (p_total _ <=? 0)%Z; [reflexivity|]. cbn zeta.
  destruct (_ || _); [reflexivity|]. destruct (nth_error _ _) as [s|]; [|reflexivity]. destruct (is_empty s); reflexivity.
Qed.
(** entries before and after a chain *)
Lemma chain_agree l f g : filed f -> convertible f -> converted l f g -> forall k,
  agree (mget k (f_entries g)) (mget k (f_entries f))
  \/ (mget k (f_entries g) = None /\ In AsPo l /\ exists e, mget k (f_entries f) = Some e /\ ~ translated e).
Proof.
  intros F C H k. destruct (chain l f g F C H) as (_ & _ & _ & K). unfold agree.
  assert (D : {In AsPo l} + {~ In AsPo l}) by (apply in_dec; decide equality).
  destruct (mget k (f_entries f)) as [e|] eqn:E.
  - destruct (is_valid e) eqn:V.
    + apply translated_valid in V. left. rewrite (proj2 (K k (left_of l e))); [cbn [option_map]; rewrite left_agree; reflexivity|]. exists e. auto.
    + assert (T : ~ translated e) by (rewrite <- translated_valid; congruence). destruct D as [D|D].
      * right. split; [|split; [exact D|exists e; auto]]. destruct (mget k (f_entries g)) as [x|] eqn:G; [|reflexivity].
        apply K in G as (y & Y & Ty & _). rewrite E in Y. injection Y as <-. destruct (T (Ty D)).
      * left. rewrite (proj2 (K k (left_of l e))); [cbn [option_map]; rewrite left_agree; reflexivity|]. exists e. split; [exact E|]. split; [contradiction|reflexivity].
  - left. destruct (mget k (f_entries g)) as [x|] eqn:G; [|reflexivity]. apply K in G as (y & Y & _). congruence.
Qed.
Lemma chain_head l f g : filed f -> convertible f -> converted l f g -> l <> [] -> forall k, fst (get_header k g) = header_value (heading f) k.
Proof.
  intros F C H N k. destruct (chain _ f g F C H) as (_ & _ & Cn & _). rewrite (canon_header g k) by (apply Cn, N).
  assert (E : hdrs g = hdrs f).
  { apply agree_headers. intros j. destruct (chain_agree _ f g F C H j) as [Q|(Q & _ & Q')]; auto. }
  rewrite E. unfold hdrs, heading. change (joined [] []) with (key [] []).
  destruct (mget (key [] []) (f_entries f)) as [e|]; [apply parse_headers_get|]. rewrite <- parse_headers_get. reflexivity.
Qed.
Lemma chain_fields l f g : filed f -> convertible f -> converted l f g -> (forall k, fst (get_header k f) = header_value (heading f) k) ->
  forall k, fst (get_header k g) = fst (get_header k f).
Proof.
  intros F C H Hf k. destruct l as [|x l]; [inversion H; subst; reflexivity|]. rewrite Hf. apply (chain_head _ f g F C H). discriminate.
Qed.
Lemma canon_rel g : canon g -> exists kv, rel g kv.
Proof.
  intros [(H & P & _)|(_ & H & P)].
  - exists None. split; [rewrite H; exact I|rewrite P; exact I].
  - exists (Some (fun k => mget k (hdrs g))). split; [rewrite H; reflexivity|]. rewrite P. exists (hdrs g). auto.
Qed.
Lemma chain_rule l f g kv : rel f kv -> filed f -> convertible f -> converted l f g -> (forall k, fst (get_header k f) = header_value (heading f) k) ->
  f_plural (init_plural g) = f_plural (init_plural f).
Proof.
  intros R F C H Hf. pose proof (chain_fields l f g F C H Hf) as Q. destruct l as [|x l]; [inversion H; subst; reflexivity|].
  destruct (chain _ f g F C H) as (_ & _ & Cn & _). destruct (canon_rel g) as (kw & R'); [apply Cn; discriminate|].
  rewrite (rel_rule f kv R), (rel_rule g kw R'), Q. reflexivity.
Qed.
(** without comments the order is decided *)
Lemma bare_keys f : filed f -> (forall e, In e (vals (f_entries f)) -> e_cmts e = [] /\ (e_id e = [] -> e_ctxt e = [])) ->
  NoDup (map sort_key (vals (f_entries f))).
Proof.
  intros [N Fk] H.
  assert (KI : forall e e', In e (vals (f_entries f)) -> In e' (vals (f_entries f)) -> sort_key e = sort_key e' -> e_key e = e_key e').
  { intros e e' He He'. unfold sort_key, line_string. rewrite (proj1 (H e He)), (proj1 (H e' He')). cbn [map concat].
    unfold is_header. destruct (e_id e) as [|x i] eqn:E1, (e_id e') as [|x' i'] eqn:E2; cbn [is_empty app].
    - intros _. unfold e_key. rewrite E1, E2, (proj2 (H e He) E1), (proj2 (H e' He') E2). reflexivity.
    - intros E. exfalso. symmetry in E. unfold e_key, key in E. destruct (e_ctxt e'); discriminate.
    - intros E. exfalso. unfold e_key, key in E. destruct (e_ctxt e); discriminate.
    - auto. }
  assert (V : map e_key (vals (f_entries f)) = keys (f_entries f)).
  { unfold vals, keys. rewrite map_map. apply map_ext_in. intros [k e] I. cbn. symmetry. apply Fk, I. }
  clear H Fk. rewrite <- V in N. clear V. revert N KI. generalize (vals (f_entries f)). clear.
  induction l as [|e l IH]; intros N KI; [constructor|]. cbn [map] in *. inversion N as [|? ? N1 N2]; subst.
  constructor; [|apply IH; [exact N2|intros; apply KI; auto; right; assumption]].
  intros I. apply in_map_iff in I as (e' & E & I). apply N1. rewrite <- (KI e' e); auto; [apply in_map, I|right; exact I|left; reflexivity].
Qed.
Lemma bare_sorted f g l l' : filed f -> filed g -> (forall k, mget k (f_entries f) = mget k (f_entries g)) ->
  (forall e, In e (vals (f_entries f)) -> e_cmts e = [] /\ (e_id e = [] -> e_ctxt e = [])) -> sorted_entries f l -> sorted_entries g l' -> l = l'.
Proof.
  intros F G E H [P S0] [P' S']. pose proof (filed_same f g F G E) as Q. apply sorted_unique; auto.
  - transitivity (vals (f_entries f)); [exact P|]. transitivity (vals (f_entries g)); [exact Q|]. symmetry. exact P'.
  - apply (Permutation_NoDup (l := map sort_key (vals (f_entries f)))); [|apply bare_keys; assumption]. apply Permutation_map. symmetry. exact P.
Qed.
(** after a conversion to .mo every chain ends in the same entries *)
Lemma chains_meet l l' f g g' : filed f -> convertible f -> converted l f g -> converted l' f g' -> In AsMo l -> In AsMo l' ->
  (In AsPo l <-> In AsPo l') \/ (forall e, In e (vals (f_entries f)) -> translated e) -> forall k, mget k (f_entries g) = mget k (f_entries g').
Proof.
  intros F C H H' M M' D k. destruct (chain l f g F C H) as (_ & _ & _ & K). destruct (chain l' f g' F C H') as (_ & _ & _ & K').
  assert (E : forall e, left_of l e = strip e).
  { intros e. unfold left_of. rewrite (proj2 (existsb_exists _ l)); [reflexivity|]. exists AsMo. auto. }
  assert (E' : forall e, left_of l' e = strip e).
  { intros e. unfold left_of. rewrite (proj2 (existsb_exists _ l')); [reflexivity|]. exists AsMo. auto. }
  assert (T : forall e, mget k (f_entries f) = Some e -> ((In AsPo l -> translated e) <-> (In AsPo l' -> translated e))).
  { intros e Ee. destruct D as [D|D]; [tauto|]. pose proof (D e (mget_in_vals _ _ _ Ee)). tauto. }
  assert (Q : forall e', mget k (f_entries g) = Some e' <-> mget k (f_entries g') = Some e').
  { intros e'. rewrite K, K'. split; intros (e & Ee & Te & ->); exists e; rewrite E, E'; (split; [exact Ee|]); (split; [|reflexivity]); apply (T e Ee), Te. }
  destruct (mget k (f_entries g)) as [x|] eqn:G.
  - symmetry. apply Q. reflexivity.
  - destruct (mget k (f_entries g')) as [y|] eqn:G'; [|reflexivity]. discriminate (proj2 (Q y) eq_refl).
Qed.
Lemma chain_bare l f g : filed f -> convertible f -> converted l f g -> In AsMo l ->
  forall e, In e (vals (f_entries g)) -> e_cmts e = [] /\ (e_id e = [] -> e_ctxt e = []).
Proof.
  intros F C H M e I. destruct (chain l f g F C H) as (Fg & Cg & _ & K). split; [|apply Cg, I].
  apply (filed_mget g e Fg), K in I as (x & _ & _ & ->). unfold left_of. rewrite (proj2 (existsb_exists _ l)); [reflexivity|]. exists AsMo. auto.
Qed.
