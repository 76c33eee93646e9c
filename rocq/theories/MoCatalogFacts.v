(** Whole catalogs as .mo files. *)
From Coq Require Import Lia ZifyBool ZifyNat ZifyN Permutation.
From Verif Require Import GoStr GoStrFacts GoMap GoMapFacts FileModel FileSpec FileFacts PoModel PoSpec PoReadFacts
  SortFacts PoSameFacts PoWriteFacts PoCatalogFacts MoModel MoSpec MoFacts.
Local Open Scope N_scope.

Lemma catalog_built ids strs : built (catalog_of ids strs).
Proof.
  exists (map (fun p => mo_entry (fst p) (snd p)) (combine ids strs)). unfold catalog_of.
  generalize new_file as f. induction (combine ids strs) as [|p l IH]; intros f; [reflexivity|]. cbn [map fold_left]. apply IH.
Qed.
Lemma read_mo_built c f : read_mo c = MoOk f -> built f.
Proof. intros H. apply read_mo_spec in H as (bo & ids & strs & _ & ->). apply catalog_built. Qed.
Lemma catalog_of_mo l : (forall e, In e l -> mo_ok e) ->
  catalog_of (map mo_id l) (map mo_str l) = fold_left add_entry (map strip l) new_file.
Proof.
  unfold catalog_of. generalize new_file as f. induction l as [|e l IH]; intros f H; [reflexivity|].
  cbn [map combine fold_left fst snd]. rewrite entry_back by (apply H; left; reflexivity).
  apply IH. intros x Hx. apply H. right. exact Hx.
Qed.
Lemma read_mo_bytes l : (forall e, In e l -> mo_ok e) -> len (mo_bytes l) < 2 ^ 32 ->
  read_mo (mo_bytes l) = MoOk (fold_left add_entry (map strip l) new_file).
Proof.
  intros H L. apply read_mo_spec. exists LE, (map mo_id l), (map mo_str l). split; [apply mo_stores, L|].
  symmetry. apply catalog_of_mo, H.
Qed.
Lemma fold_all es k :
  match mget k (f_entries (fold_left add_entry es new_file)) with
  | Some e => In e es /\ e_key e = k
  | None => forall x, In x es -> e_key x <> k
  end.
Proof. exact (fold_addif_all es k). Qed.
Theorem mo_round_trip f out : filed f -> (forall e, In e (vals (f_entries f)) -> mo_ok e) ->
  saves_mo f out -> len out < 2 ^ 32 ->
  exists f', read_mo out = MoOk f' /\ filed f' /\ forall k, mget k (f_entries f') = option_map strip (mget k (f_entries f)).
Proof.
  intros F G (l & [P S] & ->) L.
  assert (Gl : forall x, In x l -> mo_ok x) by (intros x Hx; apply G, (Permutation_in x P), Hx).
  eexists. split; [apply read_mo_bytes; assumption|]. split; [apply built_filed; eexists; reflexivity|].
  intros k. pose proof (fold_all (map strip l) k) as H. destruct (mget k _) as [e|].
  - destruct H as [H K]. apply in_map_iff in H as (x & <- & Hx). change (e_key (strip x)) with (e_key x) in K.
    assert (Q : mget k (f_entries f) = Some x); [|rewrite Q; reflexivity].
    rewrite <- K. apply filed_in; [exact F|]. apply (Permutation_in x P), Hx.
  - destruct (mget k (f_entries f)) as [e|] eqn:E; [|reflexivity]. exfalso.
    pose proof (filed_get f k e F E) as K. apply (H (strip e)); [|symmetry; exact K].
    apply in_map. apply (Permutation_in e (Permutation_sym P)). apply filed_in; [exact F|]. rewrite <- K. exact E.
Qed.

(** ** Prefixes *)
Lemma byte_at_app p q i v : byte_at p i = Some v -> byte_at (p ++ q) i = Some v.
Proof.
  unfold byte_at. destruct (nth_error p (N.to_nat i)) eqn:E; [|discriminate]. intros H.
  rewrite nth_error_app1; [rewrite E; exact H|]. apply nth_error_Some. congruence.
Qed.
Lemma word_at_app bo p q i v : word_at bo p i v -> word_at bo (p ++ q) i v.
Proof. intros (b0 & b1 & b2 & b3 & H). exists b0, b1, b2, b3. decompose [and] H. auto 10 using byte_at_app. Qed.
Lemma half_at_app bo p q i v : half_at bo p i v -> half_at bo (p ++ q) i v.
Proof. intros (b0 & b1 & H). exists b0, b1. decompose [and] H. auto 10 using byte_at_app. Qed.
Lemma bytes_at_app p q i s : bytes_at p i s -> bytes_at (p ++ q) i s.
Proof. intros (a & b & -> & L). exists a, (b ++ q). rewrite <- !app_assoc. auto. Qed.
Lemma table_at_app bo p q : forall l i, table_at bo p i l -> table_at bo (p ++ q) i l.
Proof.
  induction l as [|s r IH]; intros i; cbn [table_at]; [auto|]. intros (A & (off & B & C) & D).
  split; [apply word_at_app, A|]. split; [|apply IH, D]. exists off. split; [apply word_at_app, B|].
  destruct C; [auto|right; apply bytes_at_app; assumption].
Qed.
Lemma stores_app bo p q ids strs : stores bo p ids strs -> stores bo (p ++ q) ids strs.
Proof.
  intros (A & (x & y & B1 & B2 & B3) & (n & o & t & C1 & C2 & C3 & C4 & C5 & C6 & C7) & D).
  split; [apply word_at_app, A|]. split; [exists x, y; auto using half_at_app|].
  split; [exists n, o, t; auto 10 using word_at_app, table_at_app|]. rewrite app_length. lia.
Qed.
Theorem read_mo_app p q f : read_mo p = MoOk f -> read_mo (p ++ q) = MoOk f.
Proof.
  rewrite !read_mo_spec. intros (bo & ids & strs & H & E). exists bo, ids, strs. split; [apply stores_app, H|exact E].
Qed.
Lemma order_fun bo bo' c : word_at bo c 0 0x950412de -> word_at bo' c 0 0x950412de -> bo = bo'.
Proof. rewrite <- !order_word. intros H H'. rewrite H in H'. destruct bo, bo'; congruence || discriminate. Qed.
Lemma table_nth bo c : forall l p i s, table_at bo c p l -> nth_error l i = Some s ->
  exists off, word_at bo c (p + 8 * N.of_nat i) (len s) /\ word_at bo c (p + 8 * N.of_nat i + 4) off
    /\ (s = [] \/ bytes_at c off s).
Proof.
  induction l as [|x r IH]; intros p i s H E; [destruct i; discriminate|]. cbn [table_at] in H.
  destruct H as (A & (off & B & C) & D). destruct i as [|i].
  - injection E as ->. exists off. replace (p + 8 * N.of_nat 0) with p by lia. auto.
  - destruct (IH (p + 8) i s D E) as (o & Q). exists o.
    replace (p + 8 * N.of_nat (S i)) with (p + 8 + 8 * N.of_nat i) by lia. exact Q.
Qed.
Lemma packed_last c : forall l s p lo hi, packed c p (l ++ [s]) lo hi ->
  word_at LE c (p + 8 * N.of_nat (length l)) (len s) /\ word_at LE c (p + 8 * N.of_nat (length l) + 4) (hi - 1 - len s)
  /\ len s < hi.
Proof.
  induction l as [|x r IH]; intros s p lo hi H; cbn [app packed length] in *.
  - destruct H as (A & B & C & <-). replace (p + 8 * N.of_nat 0) with p by lia.
    replace (lo + len s + 1 - 1 - len s) with lo by lia. repeat split; auto; lia.
  - destruct H as (A & B & C & D). apply IH in D.
    replace (p + 8 * N.of_nat (S (length r))) with (p + 8 + 8 * N.of_nat (length r)) by lia. exact D.
Qed.
Theorem truncated l e p q : mo_bytes (l ++ [e]) = p ++ q -> len (mo_bytes (l ++ [e])) < 2 ^ 32 ->
  mo_str e <> [] -> (2 <= length q)%nat -> read_mo p = MoErr.
Proof.
  intros E L Ne Lq. destruct (read_mo_total p) as [[f H]|H]; [exfalso|exact H].
  set (c := mo_bytes (l ++ [e])) in *.
  apply read_mo_spec in H as (bo & ids & strs & S & _).
  destruct (mo_header_words (l ++ [e]) L) as (W0 & _ & W8 & _ & W16 & _).
  pose proof (mo_packed (l ++ [e]) L) as P. cbn zeta in *. fold c in P, W0, W8, W16. rewrite !map_app in P. cbn [map] in P.
  rewrite app_assoc in P. apply packed_last in P as (P1 & P2 & P3).
  destruct S as (A & _ & (n & o & t & C1 & C2 & C3 & C4 & C5 & C6 & C7) & D).
  assert (A' : word_at bo c 0 0x950412de) by (rewrite E; apply word_at_app, A).
  pose proof (order_fun _ _ _ A' W0). subst bo.
  assert (En : n = N.of_nat (length (l ++ [e])))
    by (apply (word_at_fun LE c 8); [rewrite E; apply word_at_app, C1|exact W8]).
  assert (Et : t = 75 + 8 * N.of_nat (length (l ++ [e])))
    by (apply (word_at_fun LE c 16); [rewrite E; apply word_at_app, C3|exact W16]).
  rewrite app_length in En, Et. cbn [length] in En, Et.
  destruct (nth_error strs (length l)) as [s|] eqn:Es; [|apply nth_error_None in Es; lia].
  destruct (table_nth _ _ _ _ _ _ C7 Es) as (off & Q1 & Q2 & Q3).
  apply (word_at_app _ _ q) in Q1, Q2. rewrite <- E in Q1, Q2.
  rewrite !app_length, !map_length in P1, P2. cbn [length] in P1, P2.
  replace (75 + 8 * N.of_nat (length l + 1 + length l)) with (t + 8 * N.of_nat (length l)) in P1, P2 by lia.
  pose proof (word_at_fun _ _ _ _ _ P1 Q1) as Eq1. pose proof (word_at_fun _ _ _ _ _ P2 Q2) as Eq2.
  assert (Hl : len (mo_str e) > 0) by (destruct (mo_str e); [congruence|unfold len; cbn [length]; lia]).
  destruct Q3 as [-> |(a & b & -> & La)]; [unfold len in *; cbn [length] in *; lia|].
  unfold len in *. rewrite E, !app_length in Eq2, P3. lia.
Qed.

(** ** The same answers from both formats *)
Definition hdrs (f : file) : gmap bytes :=
  match mget (key [] []) (f_entries f) with Some e => parse_headers (e_str e) | None => [] end.
Definition canon (f : file) : Prop :=
  (f_headers f = None /\ f_plural f = None /\ mget (key [] []) (f_entries f) = None)
  \/ (mget (key [] []) (f_entries f) <> None /\ f_headers f = Some (hdrs f)
      /\ f_plural f = Some (parse_plural (or_empty (mget H_plural_forms (hdrs f))))).
Lemma key_header e : e_key e = key [] [] <-> e_id e = [] /\ e_ctxt e = [].
Proof.
  split.
  - unfold e_key, key. intros E. destruct (e_ctxt e) as [|x c]; cbn [app] in E.
    + injection E as E. auto.
    + injection E as _ E. destruct c; discriminate.
  - intros [E1 E2]. unfold e_key. rewrite E1, E2. reflexivity.
Qed.
Lemma canon_fold es : NoDup (map e_key es) -> (forall e, In e es -> e_id e = [] -> e_ctxt e = []) ->
  canon (fold_left add_entry es new_file).
Proof.
  induction es as [|e es IH] using rev_ind; intros Nd H.
  - left. repeat split.
  - rewrite fold_left_app. cbn [fold_left]. rewrite map_app in Nd. cbn [map] in Nd.
    pose proof (NoDup_remove_1 _ _ _ Nd) as N1. pose proof (NoDup_remove_2 _ _ _ Nd) as N2. rewrite app_nil_r in N1, N2.
    assert (C : canon (fold_left add_entry es new_file))
      by (apply IH; [exact N1|intros x Hx; apply H, in_or_app; left; exact Hx]). clear IH.
    pose proof (fold_all es (key [] [])) as A.
    set (f := fold_left add_entry es new_file) in *. clearbody f.
    unfold add_entry. destruct (is_header e) eqn:Eh.
    + assert (Ei : e_id e = []) by (unfold is_header in Eh; destruct (e_id e); [reflexivity|discriminate]).
      assert (Ec : e_ctxt e = []) by (apply H; [apply in_or_app; right; left; reflexivity|exact Ei]).
      assert (Ek : e_key e = key [] []) by (apply key_header; auto).
      destruct C as [(C1 & C2 & C3)|(C1 & _)].
      * right. unfold init_header. cbn [f_headers]. rewrite C1. cbn [f_entries f_plural]. unfold init_plural. cbn [f_plural].
        rewrite C2. unfold get_header, init_header. cbn [f_headers f_entries f_plural]. rewrite Ek, mget_put_same. unfold hdrs.
        cbn [f_entries]. rewrite mget_put_same. repeat split. discriminate.
      * exfalso. destruct (mget (key [] []) (f_entries f)) as [x|]; [|congruence]. destruct A as [A K].
        apply N2. rewrite Ek, <- K. apply in_map, A.
    + assert (Ek : e_key e <> key [] []).
      { intros Q. apply key_header in Q as [Q _]. unfold is_header in Eh. rewrite Q in Eh. discriminate. }
      unfold canon, hdrs. cbn [f_entries f_headers f_plural]. rewrite mget_put_other by congruence. exact C.
Qed.
Lemma canon_header f k : canon f -> fst (get_header k f) = mget k (hdrs f).
Proof.
  unfold get_header, init_header. intros [(C1 & C2 & C3)|(C1 & C2 & C3)].
  - rewrite C1. cbn [f_headers fst]. unfold hdrs. destruct (mget (key [] []) (f_entries f)); reflexivity.
  - rewrite C2. cbn [fst]. rewrite C2. reflexivity.
Qed.
Lemma canon_plural f : canon f -> f_plural (init_plural f) = Some (parse_plural (or_empty (mget H_plural_forms (hdrs f)))).
Proof.
  intros C. pose proof (canon_header f H_plural_forms C) as E. unfold init_plural. destruct (f_plural f) as [p|] eqn:Ep.
  - destruct C as [(C1 & C2 & C3)|(C1 & C2 & C3)]; [congruence|]. exact C3.
  - destruct (get_header H_plural_forms f) as [v f']. cbn [f_plural]. cbn [fst] in E. rewrite E. reflexivity.
Qed.
(** what an answer depends on *)
Definition agree (o o' : option entry) : Prop := option_map strip o = option_map strip o'.
Lemma agree_headers f f' :
  (forall k, agree (mget k (f_entries f)) (mget k (f_entries f'))
             \/ (mget k (f_entries f) = None /\ exists e, mget k (f_entries f') = Some e /\ ~ translated e)) ->
  hdrs f = hdrs f'.
Proof.
  intros H. unfold hdrs. destruct (H (key [] [])) as [A|(A & e & A' & T)].
  - unfold agree in A. destruct (mget (key [] []) (f_entries f)) as [x|], (mget (key [] []) (f_entries f')) as [y|];
      cbn [option_map] in A; try discriminate; [|reflexivity].
    assert (Q : e_str (strip x) = e_str (strip y)) by congruence. cbn [strip e_str] in Q. rewrite Q. reflexivity.
  - rewrite A, A'. destruct (e_str e) eqn:E; [reflexivity|]. exfalso. apply T. left. congruence.
Qed.
Lemma answers_x {A} (fmt : bytes -> list A -> bytes) f f' c i args :
  agree (mget (key c i) (f_entries f)) (mget (key c i) (f_entries f'))
  \/ (mget (key c i) (f_entries f) = None /\ exists e, mget (key c i) (f_entries f') = Some e /\ ~ translated e) ->
  f_x fmt f c i args = f_x fmt f' c i args.
Proof.
  unfold f_x, agree. intros [A0|(A0 & e & A' & T)].
  - destruct (mget (key c i) (f_entries f)) as [x|], (mget (key c i) (f_entries f')) as [y|];
      cbn [option_map] in A0; try discriminate; [|reflexivity].
    assert (Q : e_str (strip x) = e_str (strip y)) by congruence. cbn [strip e_str] in Q. rewrite Q. reflexivity.
  - rewrite A0, A'. destruct (e_str e) eqn:E; [reflexivity|]. exfalso. apply T. left. congruence.
Qed.
Lemma answers_xn {A} (fmt : bytes -> list A -> bytes) f f' c i i2 n args : canon f -> canon f' -> hdrs f = hdrs f' ->
  agree (mget (key c i) (f_entries f)) (mget (key c i) (f_entries f')) ->
  fst (f_xn64 fmt f c i i2 n args) = fst (f_xn64 fmt f' c i i2 n args).
Proof.
  intros C C' H A0. unfold agree in A0. unfold f_xn64.
  destruct (mget (key c i) (f_entries f)) as [x|], (mget (key c i) (f_entries f')) as [y|];
      cbn [option_map] in A0; try discriminate; [|reflexivity].
  assert (Q1 : e_str (strip x) = e_str (strip y)) by congruence. cbn [strip e_str] in Q1.
  assert (Q2 : e_id2 (strip x) = e_id2 (strip y)) by congruence. cbn [strip e_id2] in Q2.
  assert (Q3 : e_strn (strip x) = e_strn (strip y)) by congruence. cbn [strip e_strn] in Q3.
  rewrite Q1, Q2, Q3. rewrite (canon_plural f C), (canon_plural f' C'), H.
  destruct (_ && _); [reflexivity|]. destruct (p_total _ <=? 0)%Z; [reflexivity|]. cbn zeta.
  destruct (_ || _); [reflexivity|]. destruct (nth_error _ _) as [s|]; [|reflexivity]. destruct (is_empty s); reflexivity.
Qed.
Lemma fold_filter l : forall f, fold_left (addif false) l f = fold_left add_entry (filter is_valid l) f.
Proof.
  induction l as [|e l IH]; intros f; [reflexivity|]. cbn [fold_left filter]. rewrite IH. unfold addif. cbn [orb].
  destruct (is_valid e); reflexivity.
Qed.
Lemma nodup_keys f l : filed f -> Permutation l (vals (f_entries f)) -> NoDup (map e_key l).
Proof.
  intros [N F] P. apply (Permutation_NoDup (Permutation_sym (Permutation_map e_key P))).
  replace (map e_key (vals (f_entries f))) with (keys (f_entries f)); [exact N|].
  unfold keys, vals. rewrite map_map. apply map_ext_in. intros [k e] H. cbn. apply F, H.
Qed.
Lemma nodup_filter {X Y} (g : X -> Y) (p : X -> bool) l : NoDup (map g l) -> NoDup (map g (filter p l)).
Proof.
  induction l as [|x l IH]; intros H; [constructor|]. cbn [map filter] in *. inversion H as [|? ? H1 H2]; subst.
  destruct (p x); [|auto]. cbn [map]. constructor; [|auto]. intros Q. apply H1.
  apply in_map_iff in Q as (y & E & Hy). apply filter_In in Hy as [Hy _]. rewrite <- E. apply in_map, Hy.
Qed.
Theorem po_mo_same isp f out out' : filed f ->
  (forall e, In e (vals (f_entries f)) -> po_ok e /\ mo_ok e /\ (e_id e = [] -> e_ctxt e = [])) ->
  f_entries f <> [] -> saves_po isp f out -> saves_mo f out' -> len out' < 2 ^ 32 ->
  exists f1 f2, read_po out = PoOk f1 /\ read_mo out' = MoOk f2 /\ canon f1 /\ canon f2
    /\ forall k, agree (mget k (f_entries f1)) (mget k (f_entries f2))
         \/ (mget k (f_entries f1) = None
             /\ exists e, mget k (f_entries f2) = Some e /\ ~ translated e).
Proof.
  intros F G Hne Sp Sm L.
  assert (Gp : forall e, In e (vals (f_entries f)) -> po_ok e) by (intros e H; apply G, H).
  assert (Gm : forall e, In e (vals (f_entries f)) -> mo_ok e) by (intros e H; apply G, H).
  destruct (po_round_trip isp f out F Gp Hne Sp) as (f1 & R1 & F1 & Q1).
  destruct (mo_round_trip f out' F Gm Sm L) as (f2 & R2 & F2 & Q2).
  exists f1, f2. split; [exact R1|]. split; [exact R2|]. split; [|split].
  - destruct Sp as (l & [P S] & ->).
    assert (Nl : l <> []).
    { intros ->. apply Permutation_nil in P. unfold vals in P. apply map_eq_nil in P. congruence. }
    rewrite (read_po_text isp l Nl) in R1 by (intros x Hx; apply Gp, (Permutation_in x P), Hx).
    assert (E : f1 = fold_left (addif false) l new_file) by congruence. rewrite E, fold_filter.
    apply canon_fold; [apply nodup_filter, (nodup_keys f l F P)|].
    intros e He. apply filter_In in He as [He _]. apply G, (Permutation_in e P), He.
  - destruct Sm as (l & [P S] & ->).
    rewrite read_mo_bytes in R2 by (assumption || (intros x Hx; apply Gm, (Permutation_in x P), Hx)).
    assert (E : f2 = fold_left add_entry (map strip l) new_file) by congruence. rewrite E.
    apply canon_fold.
    + rewrite map_map. exact (nodup_keys f l F P).
    + intros e He. apply in_map_iff in He as (x & <- & Hx). cbn [strip e_id e_ctxt]. apply G, (Permutation_in x P), Hx.
  - intros k. rewrite (Q2 k). destruct (mget k (f_entries f)) as [e|] eqn:E; cbn [option_map].
    + destruct (is_valid e) eqn:V.
      * left. apply translated_valid in V. rewrite (proj2 (Q1 k e) (conj E V)). reflexivity.
      * right. assert (T : ~ translated e) by (rewrite <- translated_valid; congruence). split.
        -- destruct (mget k (f_entries f1)) as [x|] eqn:E1; [|reflexivity]. exfalso. apply Q1 in E1 as [E1 T1]. congruence.
        -- exists (strip e). split; [reflexivity|exact T].
    + left. destruct (mget k (f_entries f1)) as [x|] eqn:E1; [|reflexivity]. apply Q1 in E1 as [E1 T1]. congruence.
Qed.

(** ** The stored strings are determined, and their order *)
Lemma bytes_at_fun c p s s' : bytes_at c p s -> bytes_at c p s' -> length s = length s' -> s = s'.
Proof.
  intros (a & b & -> & L) (a' & b' & E & L') Ls.
  assert (Q : length a = length a') by lia.
  assert (E1 : firstn (length a) (a ++ s ++ b) = firstn (length a') (a' ++ s' ++ b')) by congruence.
  rewrite !firstn_app, !firstn_all, !Nat.sub_diag in E1. cbn [firstn] in E1. rewrite !app_nil_r in E1. subst a'.
  apply app_inv_head in E.
  assert (E2 : firstn (length s) (s ++ b) = firstn (length s') (s' ++ b')) by congruence.
  rewrite !firstn_app, !firstn_all, !Nat.sub_diag in E2. cbn [firstn] in E2. rewrite !app_nil_r in E2. exact E2.
Qed.
Lemma table_fun bo c : forall l l' p, length l = length l' -> table_at bo c p l -> table_at bo c p l' -> l = l'.
Proof.
  induction l as [|s r IH]; intros [|s' r'] p L H H'; try discriminate; [reflexivity|]. cbn [table_at] in *.
  destruct H as (A & (o & B & C) & D), H' as (A' & (o' & B' & C') & D'). cbn [length] in L.
  assert (E : length s = length s') by (pose proof (word_at_fun _ _ _ _ _ A A'); lia).
  pose proof (word_at_fun _ _ _ _ _ B B'). subst o'. f_equal; [|apply (IH r' (p + 8)); auto; lia].
  destruct C as [-> | C], C' as [-> | C']; [reflexivity|destruct s'; [reflexivity|discriminate]|destruct s; [reflexivity|discriminate]|].
  apply (bytes_at_fun c o); assumption.
Qed.
Lemma stores_fun bo bo' c ids strs ids' strs' : stores bo c ids strs -> stores bo' c ids' strs' ->
  bo = bo' /\ ids = ids' /\ strs = strs'.
Proof.
  intros (A & _ & (n & o & t & C1 & C2 & C3 & C4 & C5 & C6 & C7) & _)
         (A' & _ & (n' & o' & t' & C1' & C2' & C3' & C4' & C5' & C6' & C7') & _).
  pose proof (order_fun _ _ _ A A'). subst bo'. split; [reflexivity|].
  pose proof (word_at_fun _ _ _ _ _ C1 C1'). pose proof (word_at_fun _ _ _ _ _ C2 C2').
  pose proof (word_at_fun _ _ _ _ _ C3 C3'). subst n' o' t'.
  split; [apply (table_fun bo c ids ids' o)|apply (table_fun bo c strs strs' t)]; auto; lia.
Qed.
Lemma bltb_tail : forall i j u v, ~ In NUL j -> (u = [] \/ exists u', u = NUL :: u') -> bltb i j = true -> bltb (i ++ u) (j ++ v) = true.
Proof.
  induction i as [|x i IH]; intros [|y j] u v N U H; try discriminate.
  - destruct U as [->|[u' ->]]; [reflexivity|]. cbn [app bltb].
    assert (C : code NUL < code y).
    { destruct (N.eq_dec (code y) 0) as [E|E]; [|change (code NUL) with 0; lia].
      exfalso. apply N. left. apply code_inj. rewrite E. reflexivity. }
    destruct (N.ltb_spec (code NUL) (code y)); [reflexivity|lia].
  - cbn [app bltb] in *. destruct (code x <? code y); [reflexivity|]. destruct (code y <? code x); [discriminate|].
    apply IH; auto. intros Q. apply N. right. exact Q.
Qed.
Definition plain (e : entry) : Prop :=
  e_ctxt e = [] /\ ~ In NUL (e_id e) /\ forall c, In c (e_cmts e) -> ~ starts (B "#:") c.
Lemma plain_key e : plain e -> sort_key e = if is_header e then [] else EOT :: e_id e.
Proof.
  intros (C & _ & R). unfold sort_key. destruct (is_header e); [reflexivity|]. unfold e_key, key. rewrite C. cbn [app].
  unfold line_string. replace (concat _) with (@nil ascii); [reflexivity|].
  induction (e_cmts e) as [|c r IH]; [reflexivity|]. cbn [map concat].
  destruct (has_prefix (B "#:") c) eqn:E.
  - exfalso. apply has_prefix_iff in E as [t ->]. apply (R (B "#:" ++ t)); [left; reflexivity|]. exists t. reflexivity.
  - cbn [app]. apply IH. intros x Hx. apply R. right. exact Hx.
Qed.
Lemma plain_before e x : plain e -> plain x -> e_key e <> e_key x -> bltb (sort_key x) (sort_key e) = false ->
  bltb (mo_id e) (mo_id x) = true.
Proof.
  intros Pe Px K H. rewrite (plain_key e Pe), (plain_key x Px) in H.
  assert (Ne : e_id e <> e_id x) by (intros Q; apply K; unfold e_key; rewrite Q, (proj1 Pe), (proj1 Px); reflexivity).
  assert (Hi : bltb (e_id e) (e_id x) = true).
  { unfold is_header in H. destruct (e_id e) as [|a i] eqn:E1; [destruct (e_id x); [congruence|reflexivity]|].
    destruct (e_id x) as [|b j] eqn:E2; [discriminate|]. cbn [is_empty] in H. cbn [bltb] in H. rewrite N.ltb_irrefl in H.
    change (bltb (b :: j) (a :: i) = false) in H.
    destruct (bltb (a :: i) (b :: j)) eqn:Q; [reflexivity|]. exfalso. apply Ne, bltb_trichotomy; assumption. }
  unfold mo_id. rewrite (proj1 Pe), (proj1 Px). cbn [is_empty negb].
  apply bltb_tail; [apply Px| |exact Hi]. destruct (e_plural e); [right; eauto|left; reflexivity].
Qed.
Lemma plain_sorted : forall l, (forall e, In e l -> plain e) -> NoDup (map e_key l) -> sorted_by_key l ->
  forall i j s s', (i < j)%nat -> nth_error (map mo_id l) i = Some s -> nth_error (map mo_id l) j = Some s' -> bltb s s' = true.
Proof.
  induction l as [|e l IH]; intros Hp Hn Hs i j s s' Hij Ei Ej; [destruct i; discriminate|].
  cbn [map] in *. inversion Hn as [|? ? N1 N2]; subst. destruct Hs as [S1 S2]. destruct j as [|j]; [lia|]. cbn [nth_error] in Ej.
  destruct i as [|i].
  - injection Ei as <-. apply nth_error_In, in_map_iff in Ej as (x & <- & Hx).
    apply plain_before; [apply Hp; left; reflexivity|apply Hp; right; exact Hx| |apply S1, Hx].
    intros Q. apply N1. rewrite Q. apply in_map, Hx.
  - apply (IH (fun x Hx => Hp x (or_intror Hx)) N2 S2 i j); auto; lia.
Qed.

(** ** Only the last byte is missing *)
Lemma byte_at_cut p q i v : byte_at (p ++ q) i = Some v -> i < len p -> byte_at p i = Some v.
Proof. unfold byte_at, len. intros H L. rewrite nth_error_app1 in H by lia. exact H. Qed.
Lemma word_at_cut bo p q i v : word_at bo (p ++ q) i v -> i + 3 < len p -> word_at bo p i v.
Proof.
  intros (b0 & b1 & b2 & b3 & H0 & H1 & H2 & H3 & E) L. exists b0, b1, b2, b3.
  apply byte_at_cut in H0, H1, H2, H3; try lia. auto.
Qed.
Lemma half_at_cut bo p q i v : half_at bo (p ++ q) i v -> i + 1 < len p -> half_at bo p i v.
Proof.
  intros (b0 & b1 & H0 & H1 & E) L. exists b0, b1. apply byte_at_cut in H0, H1; try lia. auto.
Qed.
Lemma bytes_at_cut p x i s y : bytes_at (p ++ [x]) i (s ++ [y]) -> bytes_at p i s.
Proof.
  intros (a & b & E & L). destruct b as [|z b _] using rev_ind.
  - rewrite app_nil_r, app_assoc in E. apply app_inj_tail in E as [-> _]. exists a, []. rewrite app_nil_r. auto.
  - rewrite !app_assoc in E. apply app_inj_tail in E as [-> _]. exists a, ([y] ++ b). rewrite <- !app_assoc. auto.
Qed.
Lemma packed_cut p x : forall l q lo hi, packed (p ++ [x]) q l lo hi -> q + 8 * N.of_nat (length l) <= len p ->
  table_at LE p q l.
Proof.
  induction l as [|s r IH]; intros q lo hi H L; cbn [packed table_at length] in *; [exact I|].
  destruct H as (A & B & C & D). split; [apply (word_at_cut _ _ _ _ _ A); lia|].
  split; [|apply (IH _ _ _ D); lia]. exists lo. split; [apply (word_at_cut _ _ _ _ _ B); lia|]. right.
  exact (bytes_at_cut _ _ _ _ _ C).
Qed.
Theorem last_byte l p x : mo_bytes l = p ++ [x] -> len (mo_bytes l) < 2 ^ 32 -> read_mo p = read_mo (mo_bytes l).
Proof.
  intros E L. pose proof (mo_stores l L) as S. pose proof (mo_packed l L) as P. cbn zeta in P.
  pose proof (mo_bytes_len l) as Q. change offset_o with 75 in Q. unfold body in Q. rewrite len_app in Q.
  assert (Lw : forall k : list bytes, N.of_nat (length k) <= len (write_strings k)).
  { induction k as [|s k IH]; [reflexivity|]. unfold write_strings in *. cbn [map concat length].
    rewrite !len_app. change (len [NUL]) with 1. lia. }
  pose proof (Lw (map mo_id l)) as L1. rewrite map_length in L1.
  pose proof (Lw (map mo_str l)) as L2. rewrite map_length in L2.
  assert (Lp : len p = len (mo_bytes l) - 1) by (rewrite E, len_app; change (len [x]) with 1; lia).
  assert (S' : stores LE p (map mo_id l) (map mo_str l)).
  { destruct (mo_header_words l L) as (W0 & W4 & W8 & W12 & W16 & _). cbn zeta in *.
    destruct S as (_ & (ma & mi & V1 & V2 & V3 & V4) & _). rewrite E in W0, W8, W12, W16, V1, V2, P.
    split; [apply (word_at_cut _ _ _ _ _ W0); lia|].
    split; [exists ma, mi; repeat split; auto; [apply (half_at_cut _ _ _ _ _ V1)|apply (half_at_cut _ _ _ _ _ V2)]; lia|].
    split; [|unfold len in *; lia].
    exists (N.of_nat (length l)), 75, (75 + 8 * N.of_nat (length l)). rewrite !map_length.
    split; [apply (word_at_cut _ _ _ _ _ W8); lia|]. split; [apply (word_at_cut _ _ _ _ _ W12); lia|].
    split; [apply (word_at_cut _ _ _ _ _ W16); lia|]. split; [reflexivity|]. split; [reflexivity|].
    assert (T : table_at LE p 75 (map mo_id l ++ map mo_str l)).
    { destruct l as [|e l]; [exact I|]. apply (packed_cut _ _ _ _ _ _ P). rewrite app_length, !map_length.
      cbn [length] in *. lia. }
    apply table_app in T as [T1 T2]. rewrite map_length in T2. auto. }
  assert (R : read_mo p = MoOk (catalog_of (map mo_id l) (map mo_str l))) by (apply read_mo_spec; eauto).
  assert (R' : read_mo (mo_bytes l) = MoOk (catalog_of (map mo_id l) (map mo_str l)))
    by (apply read_mo_spec; exists LE; eauto). congruence.
Qed.
Lemma saves_mo_exist f : exists out, saves_mo f out.
Proof.
  destruct (isort_sorted (vals (f_entries f))) as [P S].
  eexists; exists (isort (vals (f_entries f))); (split; [split; assumption|reflexivity]).
Qed.
