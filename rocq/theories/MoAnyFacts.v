(** Reading back any catalog saved as .mo file. *)
From Coq Require Import Lia ZifyBool ZifyNat ZifyN Permutation.
From Verif Require Import GoStr GoStrFacts GoMap GoMapFacts FileModel FileSpec FileFacts PoModel PoSpec PoReadFacts
  SortFacts PoSameFacts PoWriteFacts PoCatalogFacts MoModel MoSpec MoFacts MoCatalogFacts MoAnySpec.

Lemma id_string_eq e : mo_id e = id_string e.
Proof.
  unfold mo_id, id_string. destruct (e_ctxt e) as [|c t]; cbn [is_empty negb]; [reflexivity|].
  rewrite <- !app_assoc. reflexivity.
Qed.
Definition image (e : entry) : entry := mo_entry (mo_id e) (mo_str e).
Lemma comes_back_iff e e' : comes_back e e' <-> e' = image e.
Proof. unfold comes_back, image. rewrite <- id_string_eq. apply means_iff. Qed.
Lemma fold_last_of es k : last_of es k (mget k (f_entries (fold_left add_entry es new_file))).
Proof.
  pose proof (fold_last (fun _ => true) es k) as H.
  change (fold_left add_entry es new_file) with (fold_left (fun f e => if true then add_entry f e else f) es new_file).
  cbv beta iota in H |- *. destruct (mget k _) as [e|]; cbn [last_of].
  - destruct H as (a & b & E & K & _ & N). exists a, b. repeat split; auto. intros x Hx Kx. discriminate (N x Hx Kx).
  - intros x Hx Kx. discriminate (H x Hx Kx).
Qed.
Lemma catalog_images l : catalog_of (map mo_id l) (map mo_str l) = fold_left add_entry (map image l) new_file.
Proof.
  unfold catalog_of. generalize new_file as f. induction l as [|e l IH]; intros f; [reflexivity|].
  cbn [map combine fold_left fst snd]. apply IH.
Qed.
Lemma read_images l : (len (mo_bytes l) < 2 ^ 32)%N ->
  read_mo (mo_bytes l) = MoOk (fold_left add_entry (map image l) new_file).
Proof.
  intros L. apply read_mo_spec. exists LE, (map mo_id l), (map mo_str l). split; [apply mo_stores, L|].
  symmetry. apply catalog_images.
Qed.
Theorem mo_any f out : saves_mo f out -> (N.of_nat (length out) < 2 ^ 32)%N ->
  exists l l' f', sorted_entries f l /\ Forall2 comes_back l l' /\ read_mo out = MoOk f' /\ filed f'
    /\ forall k, last_of l' k (mget k (f_entries f')).
Proof.
  intros (l & So & ->) L. exists l, (map image l). eexists. split; [exact So|]. split.
  - clear. induction l; constructor; [apply comes_back_iff; reflexivity|exact IHl].
  - split; [apply read_images, L|]. split; [apply built_filed; eexists; reflexivity|]. intros k. apply fold_last_of.
Qed.

(** ** When everything comes back *)
(** a measure of keys that no image exceeds *)
Definition in_a (k : bytes) : bool := match k with c :: _ => Ascii.eqb c EOT | [] => false end.
Definition mu (M : nat) (k : bytes) : nat := length k + if in_a k then M else 0.
Lemma existsb_false c s : existsb (Ascii.eqb c) s = false <-> ~ In c s.
Proof.
  rewrite <- existsb_in. destruct (existsb (Ascii.eqb c) s); split; intros H; congruence.
Qed.
(** the part up to the first [c] is a prefix of everything before any [c] *)
Lemma first_prefix (c : ascii) (a x b y : bytes) : ~ In c a -> a ++ c :: x = b ++ c :: y -> exists t, b = a ++ t.
Proof.
  intros Na E. revert b E. induction a as [|z a IH]; intros b E; [exists b; reflexivity|].
  destruct b as [|w b]; cbn [app] in E; injection E as -> E; [exfalso; apply Na; left; reflexivity|].
  destruct (IH (fun H => Na (or_intror H)) b E) as [t ->]. exists t. reflexivity.
Qed.
(** the id of an image: what stands before the first NUL of what follows the
    context, if anything *)
Lemma means_key id str e : means id str e ->
  exists id1 t, (id = e_ctxt e ++ EOT :: id1 /\ ~ In EOT (e_ctxt e) \/ ~ In EOT id /\ e_ctxt e = [] /\ id1 = id)
    /\ id1 = e_id e ++ t /\ ~ In NUL (e_id e) /\ (t = [] \/ exists u, t = NUL :: u).
Proof.
  intros (_ & id1 & H1 & H2). exists id1.
  destruct (existsb (Ascii.eqb NUL) id1) eqn:E2.
  - destruct H2 as (-> & N & _). exists (NUL :: e_id2 e). split; [|eauto].
    destruct (existsb (Ascii.eqb EOT) id) eqn:E1; [left; exact H1|right]. apply existsb_false in E1. tauto.
  - destruct H2 as (-> & _). exists []. rewrite app_nil_r. apply existsb_false in E2. split; [|auto].
    destruct (existsb (Ascii.eqb EOT) id) eqn:E1; [left; exact H1|right]. apply existsb_false in E1. tauto.
Qed.
Lemma tail_nul (i t j s : bytes) : i ++ t = j ++ s -> ~ In NUL i -> (t = [] \/ exists u, t = NUL :: u) ->
  (s = [] \/ exists u, s = NUL :: u) -> exists r, j = i ++ r.
Proof.
  intros E Ni Ht Hs. destruct Ht as [-> | [u ->]].
  - rewrite app_nil_r in E. destruct Hs as [-> | [v ->]].
    + rewrite app_nil_r in E. exists []. rewrite app_nil_r. congruence.
    + exfalso. apply Ni. rewrite E. apply in_or_app. right. left. reflexivity.
  - destruct Hs as [-> | [v ->]].
    + rewrite app_nil_r in E. exists (NUL :: u). congruence.
    + eapply first_prefix; eassumption.
Qed.
Lemma image_key M e : (length (e_key (image e)) < M) ->
  mu M (e_key (image e)) <= mu M (e_key e) /\ (mu M (e_key (image e)) = mu M (e_key e) -> e_key (image e) = e_key e).
Proof.
  intros HM. assert (Cb : comes_back e (image e)) by (apply comes_back_iff; reflexivity).
  set (m := image e) in *. clearbody m. destruct (means_key _ _ _ Cb) as (id1 & t & H1 & E1 & N & Ht).
  set (s := if e_plural e then NUL :: e_id2 e else []).
  assert (Hs : s = [] \/ exists u, s = NUL :: u) by (unfold s; destruct (e_plural e); eauto).
  (* an image whose key begins the key of the entry *)
  assert (Pre : forall r, e_key e = e_key m ++ r ->
     mu M (e_key m) <= mu M (e_key e) /\ (mu M (e_key m) = mu M (e_key e) -> e_key m = e_key e)).
  { intros r E. rewrite E. unfold mu. rewrite app_length.
    assert (A : in_a (e_key m ++ r) = in_a (e_key m)).
    { unfold e_key, key. destruct (e_ctxt m); reflexivity. }
    rewrite A. split; [lia|]. intros Q. assert (length r = 0) by lia. destruct r; [|discriminate].
    rewrite app_nil_r. reflexivity. }
  unfold id_string in H1. fold s in H1. destruct (e_ctxt e) as [|c ctx] eqn:Ec.
  - cbn [app] in H1. destruct H1 as [[H1 Nc]|(Ne & Em & Eid)].
    + (* a separator where no context is *)
      assert (Ke : e_key e = EOT :: e_id e) by (unfold e_key, key; rewrite Ec; reflexivity).
      destruct (in_dec Ascii.ascii_dec NUL (e_ctxt m)) as [In0|Nn].
      * (* in the plural id: the image has a context, which the entry does not have *)
        assert (A : in_a (e_key m) = false).
        { unfold e_key, key, in_a. destruct (e_ctxt m) as [|x u]; [destruct In0|]. cbn [app].
          apply Ascii.eqb_neq. intros ->. apply Nc. left. reflexivity. }
        rewrite Ke. unfold mu. rewrite A. cbn [in_a]. rewrite Ascii.eqb_refl. cbn [length]. split; lia.
      * (* in the id *)
        assert (Q : exists r, e_id e = e_key m ++ r).
        { rewrite E1 in H1. unfold e_key, key. 
          assert (X : (e_ctxt m ++ EOT :: e_id m) ++ t = e_id e ++ s) by (rewrite <- app_assoc; symmetry; exact H1).
          apply (tail_nul _ _ _ _ X); [|exact Ht|exact Hs]. intros I. apply in_app_or in I as [I|[I|I]]; [auto|discriminate|auto]. }
        destruct Q as [r Q]. rewrite Ke, Q. unfold mu. cbn [in_a]. rewrite Ascii.eqb_refl. cbn [length]. rewrite app_length.
        destruct (in_a (e_key m)); split; lia.
    + (* no context in the image either *)
      rewrite E1 in Eid. apply (tail_nul _ _ _ _ Eid N Ht) in Hs as [r Hr]. apply (Pre r). unfold e_key, key.
      rewrite Ec, Em, Hr. reflexivity.
  - set (x := c :: ctx) in *. destruct H1 as [[H1 Nc]|(Ne & _)].
    2:{ exfalso. apply Ne. apply in_or_app. left. apply in_or_app. right. left. reflexivity. }
    rewrite <- app_assoc in H1. cbn [app] in H1. rewrite E1 in H1.
    (* the context of the image begins that of the entry *)
    symmetry in H1. destruct (first_prefix _ _ _ _ _ Nc H1) as [v Hv].
    assert (X : exists r, e_key e = e_key m ++ r).
    { unfold e_key, key. rewrite Ec. fold x. rewrite Hv in H1 |- *. rewrite <- !app_assoc in *. apply app_inv_head in H1.
      assert (Y : v = [] \/ exists v', v = EOT :: v').
      { destruct v as [|y v']; [auto|]. right. cbn [app] in H1. injection H1 as <- _. eauto. }
      destruct Y as [-> | [v' ->]]; cbn [app] in H1 |- *.
      - injection H1 as H1. apply (tail_nul _ _ _ _ H1 N Ht) in Hs as [r Hr]. exists r. rewrite Hr, <- app_assoc. reflexivity.
      - injection H1 as H1.
        assert (H1' : e_id m ++ t = (v' ++ EOT :: e_id e) ++ s) by (rewrite <- app_assoc; exact H1).
        apply (tail_nul _ _ _ _ H1' N Ht) in Hs as [r Hr]. exists r. rewrite Hr, <- app_assoc. reflexivity. }
    destruct X as [r X]. apply (Pre r X).
Qed.
Lemma sum_squeeze {A} (g h : A -> nat) l : (forall x, In x l -> g x <= h x) ->
  list_sum (map g l) = list_sum (map h l) -> forall x, In x l -> g x = h x.
Proof.
  induction l as [|y l IH]; intros H E x; [intros []|]. change (g y + list_sum (map g l) = h y + list_sum (map h l)) in E.
  assert (L : list_sum (map g l) <= list_sum (map h l)).
  { clear - H. induction l as [|z l IH]; [apply le_n|].
    change (g z + list_sum (map g l) <= h z + list_sum (map h l)).
    assert (g z <= h z) by (apply H; right; left; reflexivity).
    assert (list_sum (map g l) <= list_sum (map h l)) by (apply IH; intros x [<-|Hx]; apply H; [left; reflexivity|right; right; exact Hx]).
    lia. }
  pose proof (H y (or_introl eq_refl)). intros [<-|Hx]; [lia|]. apply IH; [intros z Hz; apply H; right; exact Hz|lia|exact Hx].
Qed.
Lemma list_sum_perm l l' : Permutation l l' -> list_sum l = list_sum l'.
Proof. intros P. induction P; cbn [list_sum fold_right] in *; unfold list_sum in *; cbn [fold_right] in *; lia. Qed.
Lemma same_keys l : Permutation (map e_key l) (map e_key (map image l)) -> forall e, In e l -> e_key (image e) = e_key e.
Proof.
  intros P. set (M := S (list_sum (map (fun e => length (e_key (image e))) l))).
  assert (HM : forall e, In e l -> length (e_key (image e)) < M).
  { intros e He. unfold M. clear - He. induction l as [|x l IH]; [destruct He|].
    change (length (e_key (image e)) < S (length (e_key (image x)) + list_sum (map (fun e => length (e_key (image e))) l))).
    destruct He as [->|He]; [lia|]. specialize (IH He). lia. }
  intros e He. apply (image_key M e (HM e He)).
  apply (sum_squeeze (fun e => mu M (e_key (image e))) (fun e => mu M (e_key e)) l); [|clear e He|exact He].
  - intros x Hx. apply (image_key M x (HM x Hx)).
  - apply (Permutation_map (mu M)) in P. rewrite !map_map in P. symmetry. apply list_sum_perm, P.
Qed.
Lemma image_strip e : image e = strip e -> mo_ok e.
Proof.
  intros E. assert (Cb : comes_back e (strip e)) by (apply comes_back_iff; symmetry; exact E).
  pose proof Cb as Cb'. destruct (means_key _ _ _ Cb) as (_ & _ & _ & _ & NI & _).
  destruct Cb as (_ & id1 & H1 & H2). cbn [strip e_ctxt e_id e_id2 e_plural e_str e_strn] in *.
  unfold mo_ok. unfold id_string in H1. set (s := if e_plural e then NUL :: e_id2 e else []) in *.
  split.
  { destruct (existsb (Ascii.eqb EOT) _) in H1; [apply H1|]. destruct H1 as [-> _]. intros []. }
  split; [exact NI|].
  assert (Pl : if e_plural e then e_str e = [] /\ e_strn e <> [] /\ (forall s, In s (e_strn e) -> ~ In NUL s)
      else e_id2 e = [] /\ e_strn e = []).
  { destruct (existsb (Ascii.eqb NUL) id1).
    - destruct H2 as (_ & _ & -> & -> & _ & Ne & Ns). auto.
    - destruct H2 as (_ & -> & -> & _ & ->). auto. }
  split; [|exact Pl]. intros Ec. rewrite Ec in H1. cbn [app] in H1.
  destruct (existsb (Ascii.eqb EOT) (e_id e ++ s)) eqn:Ex.
  - (* a leading separator is lost *)
    exfalso. destruct H1 as [H1 _].
    assert (L : length id1 = length (e_id e ++ s)).
    { destruct (existsb (Ascii.eqb NUL) id1) eqn:En.
      - destruct H2 as (-> & _ & Ep & _). unfold s. rewrite Ep. reflexivity.
      - destruct H2 as (E2 & _ & Ep & _). unfold s. rewrite Ep, app_nil_r, E2. reflexivity. }
    rewrite H1 in L. cbn [length] in L. lia.
  - apply existsb_false in Ex. split; [intros I; apply Ex, in_or_app; left; exact I|].
    intros I. unfold s in Ex. destruct (e_plural e) eqn:Ep; [apply Ex, in_or_app; right; right; exact I|].
    destruct Pl as [Pl _]. rewrite Pl in I. destruct I.
Qed.
Theorem mo_round_trip_iff f out : filed f -> saves_mo f out -> (N.of_nat (length out) < 2 ^ 32)%N ->
  ((exists f', read_mo out = MoOk f' /\ forall k, mget k (f_entries f') = option_map strip (mget k (f_entries f)))
   <-> forall e, In e (vals (f_entries f)) -> mo_ok e).
Proof.
  intros F Sv L. split.
  2:{ intros G. destruct (mo_round_trip f out F G Sv L) as (f' & R & _ & Q). eauto. }
  intros (f' & R & Q). destruct Sv as (l & [P St] & ->). rewrite read_images in R by exact L. injection R as <-.
  assert (Il : forall e, In e l <-> mget (e_key e) (f_entries f) = Some e).
  { intros e. rewrite <- filed_in by exact F. split; apply Permutation_in; [exact P|apply Permutation_sym, P]. }
  assert (Nd : NoDup (map e_key l)).
  { exact (nodup_keys f l F P). }
  assert (Pk : Permutation (map e_key l) (map e_key (map image l))).
  { apply NoDup_Permutation_bis; [exact Nd|rewrite !map_length; apply le_n|].
    intros k Hk. apply in_map_iff in Hk as (e & <- & He). pose proof (fold_last_of (map image l) (e_key e)) as H.
    rewrite Q in H. apply Il in He. rewrite He in H. destruct H as (a & b & Em & K & _). rewrite <- K.
    apply in_map. rewrite Em. apply in_or_app. right. left. reflexivity. }
  intros e He. assert (El : In e l) by (apply (Permutation_in e (Permutation_sym P)), He).
  apply image_strip. pose proof (fold_last_of (map image l) (e_key e)) as H.
  rewrite Q in H. pose proof (proj1 (Il e) El) as Eg. rewrite Eg in H. destruct H as (a & b & Em & K & _).
  assert (Is : In (strip e) (map image l)) by (rewrite Em; apply in_or_app; right; left; reflexivity).
  apply in_map_iff in Is as (x & Ex & Hx). rewrite <- Ex.
  assert (Kx : e_key x = e_key e).
  { rewrite <- (same_keys l Pk x Hx), Ex. reflexivity. }
  assert (Gx : mget (e_key x) (f_entries f) = Some x) by (apply Il, Hx). rewrite Kx, Eg in Gx. injection Gx as ->. reflexivity.
Qed.
