(** What extraction finds whatever the order of the templates (C73). *)
From Coq Require Import Lia Permutation Sorted.
From Verif Require Import GoStr GoStrFacts GoMap GoMapFacts FileModel FileFacts FileSpec PoModel PoSpec PoCatalogFacts PoLoadFacts SortFacts
  XtModel XtSpec XtKeyFacts XtFacts XtMergeFacts XtRunFacts XtRepSpec XtOrderFacts.
Local Open Scope Z_scope.

Lemma perm_filter {X} (f : X -> bool) a b : Permutation a b -> Permutation (filter f a) (filter f b).
Proof.
  induction 1 as [|x a b _ IH|x y a|a b c _ IH1 _ IH2]; cbn [filter]; [constructor| | |eapply perm_trans; eauto].
  - destruct (f x); [apply perm_skip|]; exact IH.
  - destruct (f x), (f y); try apply Permutation_refl. apply perm_swap.
Qed.
Lemma perm_concat {X} (a b : list (list X)) : Permutation a b -> Permutation (concat a) (concat b).
Proof.
  induction 1 as [|x a b _ IH|x y a|a b c _ IH1 _ IH2]; cbn [concat]; [constructor| | |eapply perm_trans; eauto].
  - apply Permutation_app_head, IH.
  - rewrite !app_assoc. apply Permutation_app_tail, Permutation_app_comm.
Qed.
(** the messages of two orders of the templates are the same, in some order *)
Lemma files_bag kws (tr1 tr2 : bytes -> list tnode) files :
  (forall n, In n files -> Permutation (tr1 n) (tr2 n)) ->
  exists l1 l2,
    (forall c, c_kws c = kws -> fold_left (fun c n => fold_left (fun c t => resolve_node n t c) (tr1 n) c) files c = fold_left ctx_add l1 c)
    /\ (forall c, c_kws c = kws -> fold_left (fun c n => fold_left (fun c t => resolve_node n t c) (tr2 n) c) files c = fold_left ctx_add l2 c)
    /\ Permutation l1 l2
    /\ forall e, In e l1 -> exists n t o k, In n files /\ message n kws t o k e.
Proof.
  induction files as [|n files IH]; intros H.
  - exists [], []. split; [reflexivity|]. split; [reflexivity|]. split; [constructor|intros e []].
  - destruct IH as (l1 & l2 & E1 & E2 & K & Sr); [intros m Hm; apply H; right; exact Hm|].
    destruct (listings_ex kws n (tr1 n)) as (ess & F).
    destruct (Permutation_Forall2 (H n (or_introl eq_refl)) F) as (ess' & P' & F').
    exists (concat ess ++ l1), (concat ess' ++ l2). repeat split.
    + intros c Hc. cbn [fold_left]. rewrite (listings_fold kws n _ _ F c Hc), fold_left_app. apply E1. rewrite fold_add_kws. exact Hc.
    + intros c Hc. cbn [fold_left]. rewrite (listings_fold kws n _ _ F' c Hc), fold_left_app. apply E2. rewrite fold_add_kws. exact Hc.
    + apply Permutation_app; [apply perm_concat, P'|exact K].
    + intros e I. apply in_app_or in I as [I|I].
      * apply in_concat in I as (es & I1 & I2).
        assert (X : exists t, listing kws n t es).
        { clear - F I1. induction F as [|t0 es0 ts ess L F IH]; [destruct I1|]. destruct I1 as [->|I1]; [exists t0; exact L|apply IH, I1]. }
        destruct X as (t & _ & L). destruct (L e I2) as (o & k & M & _). exists n, t, o, k. split; [left; reflexivity|exact M].
      * destruct (Sr e I) as (m & t & o & k & J & M). exists m, t, o, k. split; [right; exact J|exact M].
Qed.
Lemma merged_bag l1 l2 k m1 m2 : Permutation l1 l2 -> merged l1 k m1 -> merged l2 k m2 -> e_plural m1 = e_plural m2 ->
  Permutation (e_cmts m1) (e_cmts m2).
Proof.
  intros P (e1 & F1 & ->) (e2 & F2 & ->) E. cbn [with_cmts e_plural e_cmts] in *. apply perm_concat, Permutation_map.
  apply first_in in F1 as [_ K1]. apply first_in in F2 as [_ K2]. unfold alike. rewrite K1, K2, E. apply perm_filter, P.
Qed.
(** reading back what is made of a list of messages *)
Lemma pot_reads isp kws now p files l f out : clean_names files ->
  (forall e, In e l -> exists n t o k, In n files /\ message n kws t o k e) ->
  makes_pot now p (fold_left ctx_add l (new_ctx kws)) f -> saves_pot isp f out ->
  exists f' hp, read_pot out = PoOk f' /\ forall k m', mget k (f_entries f') = Some m' <->
    (exists m, merged l k m /\ m' = template_of m)
    \/ (forall x, In x l -> e_key x <> key [] []) /\ k = key [] [] /\ m' = template_of (header_entry now p hp).
Proof.
  intros CN Ms M S. pose proof (add_merges kws l) as Mg.
  destruct (pot_entries now p l _ f Mg M) as [Ff E].
  assert (Ok : forall e, In e l -> (forall x, In x (e_cmts e) -> comment_ok x) /\ (e_plural e = true \/ e_id2 e = [])).
  { intros e He. apply Ms in He as (n & t & o & k & Hn & Me). destruct (CN n Hn) as [C1 C2]. eapply (message_ok (fun _ => true)); eauto. }
  assert (Ok' : forall e, In e (vals (f_entries f)) -> pot_ok e).
  { intros e He. apply (filed_in _ _ Ff) in He. apply E in He as [He|(_ & _ & ->)]; [|apply (header_ok (fun _ => true))]. split.
    - intros x Hx. destruct (merged_cmts _ _ _ _ He Hx) as (y & Iy & Ix & _). exact (proj1 (Ok y Iy) x Ix).
    - destruct He as (y & F & ->). apply first_in in F as [Iy _]. exact (proj2 (Ok y Iy)). }
  assert (Ne : f_entries f <> []).
  { intros Z. destruct (first_dec l (key [] [])) as [(e & F)|N].
    - assert (X : mget (key [] []) (f_entries f) = Some (with_cmts e (concat (map e_cmts (alike e l))))) by (apply E; left; exists e; auto).
      rewrite Z in X. discriminate.
    - assert (X : mget (key [] []) (f_entries f) = Some (header_entry now p (c_has_plural (fold_left ctx_add l (new_ctx kws))))) by (apply E; right; auto).
      rewrite Z in X. discriminate. }
  destruct (pot_round_trip isp f out Ff Ok' Ne S) as (f' & Rf & _ & H). exists f', (c_has_plural (fold_left ctx_add l (new_ctx kws))).
  split; [exact Rf|]. intros k m'. rewrite H. split.
  - intros (m & X & ->). apply E in X as [X|(X & -> & ->)]; [left; eauto|right; auto].
  - intros [(m & X & ->)|(X & -> & ->)]; eexists; (split; [apply E|reflexivity]); auto.
Qed.

Section Runs.
Variable isp : N -> bool.
Variable globs : fs -> bytes -> option (list bytes).
Variable creatable : bytes -> bool.
Variables P1 P2 : list bytes -> bytes -> bytes -> bytes -> option (list tnode).
Variable letter number : N -> bool.
Hypothesis Same : same_templates P1 P2.
Notation run1 := (runs isp globs creatable P1 letter number).
Notation run2 := (runs isp globs creatable P2 letter number).

Theorem runs_outcome now p w o1 w1 out1 o2 w2 out2 : run1 now p w o1 w1 out1 -> run2 now p w o2 w2 out2 ->
  o1 = o2 /\ (o1 <> ROk -> w1 = w2 /\ out1 = out2).
Proof.
  intros R1 R2.
  inversion R1 as [K1|k1 K1 T1 C1|k1 v1 K1 O1 G1|k1 v1 fs1 K1 O1 G1 F1|k1 v1 fs1 c1 K1 O1 G1 F1|k1 v1 fs1 c1 f1 t1 K1 O1 G1 F1 M1 S1]; subst;
  inversion R2 as [K2|k2 K2 T2 C2|k2 v2 K2 O2 G2|k2 v2 fs2 K2 O2 G2 F2|k2 v2 fs2 c2 K2 O2 G2 F2|k2 v2 fs2 c2 f2 t2 K2 O2 G2 F2 M2 S2]; subst;
  try congruence; auto;
  try (destruct O1 as [(? & ? & ?)|(? & ?)]; congruence); try (destruct O2 as [(? & ? & ?)|(? & ?)]; congruence);
  apply opened_iff in O1; apply opened_iff in O2; subst; try congruence; auto;
  assert (k1 = k2) as <- by congruence; assert (fs1 = fs2) as <- by congruence;
  pose proof (resolve_same P1 P2 letter number Same p (map k_name k1 ++ function_names (p_function p)) (opened p w) fs1 false (new_ctx k1) (new_ctx k1)) as Q;
  rewrite F1, F2 in Q; cbn [option_map snd] in Q; try discriminate Q; auto.
  split; [reflexivity|congruence].
Qed.
Lemma done_text parses now p w w' out : runs isp globs creatable parses letter number now p w ROk w' out ->
  exists kws files f text, spells (p_keyword p) kws /\ globs (opened p w) (p_input p) = Some files
  /\ produced p w' out text /\ saves_pot isp f text
  /\ (forall n, In n files -> exists src, opened p w n = Some src
        /\ parses ((map k_name kws ++ function_names (p_function p)) ++ scan_func_names src) (p_left p) (p_right p) src
           = Some (trees parses p (map k_name kws ++ function_names (p_function p)) (opened p w) n))
  /\ makes_pot now p (fold_left (fun c n => fold_left (fun c t => resolve_node n t c)
       (trees parses p (map k_name kws ++ function_names (p_function p)) (opened p w) n) c) files (new_ctx kws)) f.
Proof.
  intros R. inversion R as [| | | | |kws w1 files c f out' K O G F M S]; subst.
  apply opened_iff in O. subst w1. exists kws, files, f, out'.
  split; [apply parse_keywords_iff, K|]. split; [exact G|]. apply files_ok in F as [-> Hf]. split; [|auto].
  unfold produced. destruct (to_file p) eqn:T.
  - left. split; [apply to_file_iff, T|apply fs_set_same].
  - right. split; [rewrite <- to_file_iff; congruence|reflexivity].
Qed.
Theorem runs_messages now p w w1 out1 w2 out2 : run1 now p w ROk w1 out1 -> run2 now p w ROk w2 out2 ->
  (forall files, globs (opened p w) (p_input p) = Some files -> clean_names files) ->
  exists t1 t2 f1 f2, produced p w1 out1 t1 /\ produced p w2 out2 t2 /\ read_pot t1 = PoOk f1 /\ read_pot t2 = PoOk f2
  /\ (forall k, mget k (f_entries f1) = None <-> mget k (f_entries f2) = None)
  /\ forall k m1 m2, mget k (f_entries f1) = Some m1 -> mget k (f_entries f2) = Some m2 -> e_plural m1 = e_plural m2 ->
       Permutation (e_cmts m1) (e_cmts m2).
Proof.
  intros R1 R2 CN. apply done_text in R1 as (k1 & fs1 & f1 & t1 & K1 & G1 & Q1 & S1 & H1 & M1).
  apply done_text in R2 as (k2 & fs2 & f2 & t2 & K2 & G2 & Q2 & S2 & H2 & M2).
  assert (k1 = k2) as <- by (apply parse_keywords_iff in K1; apply parse_keywords_iff in K2; congruence).
  assert (fs1 = fs2) as <- by congruence. specialize (CN fs1 G1).
  set (names := map k_name k1 ++ function_names (p_function p)) in *.
  destruct (files_bag k1 (trees P1 p names (opened p w)) (trees P2 p names (opened p w)) fs1) as (l1 & l2 & L1 & L2 & Pm & Ms).
  { intros n Hn. destruct (H1 n Hn) as (src & W & X1). destruct (H2 n Hn) as (src' & W' & X2).
    assert (src' = src) as -> by congruence.
    destruct (Same (names ++ scan_func_names src) (p_left p) (p_right p) src) as [[X _]|(a & b & Y1 & Y2 & Q)]; [congruence|].
    rewrite Y1 in X1. rewrite Y2 in X2. injection X1 as <-. injection X2 as <-. exact Q. }
  rewrite (L1 (new_ctx k1) eq_refl) in M1. rewrite (L2 (new_ctx k1) eq_refl) in M2.
  destruct (pot_reads isp k1 now p fs1 l1 f1 t1 CN Ms M1 S1) as (g1 & h1 & R1 & E1).
  destruct (pot_reads isp k1 now p fs1 l2 f2 t2 CN) as (g2 & h2 & R2 & E2); [|exact M2|exact S2|].
  { intros e I. apply Ms. apply (Permutation_in e (Permutation_sym Pm) I). }
  assert (Sym : forall a b (f g : file) h h', Permutation a b ->
    (forall k m', mget k (f_entries f) = Some m' <-> (exists m, merged a k m /\ m' = template_of m)
       \/ (forall x, In x a -> e_key x <> key [] []) /\ k = key [] [] /\ m' = template_of (header_entry now p h)) ->
    (forall k m', mget k (f_entries g) = Some m' <-> (exists m, merged b k m /\ m' = template_of m)
       \/ (forall x, In x b -> e_key x <> key [] []) /\ k = key [] [] /\ m' = template_of (header_entry now p h')) ->
    forall k, mget k (f_entries g) = None -> mget k (f_entries f) = None).
  { clear. intros a b f g h h' Pm E E' k N. destruct (mget k (f_entries f)) as [m'|] eqn:G; [exfalso|reflexivity].
    apply E in G as [(m & (e & F & _) & _)|(X & -> & _)].
    - apply first_in in F as [I <-]. apply (Permutation_in e Pm) in I. apply merged_in in I as (m2 & I).
      assert (Y : mget (e_key e) (f_entries g) = Some (template_of m2)) by (apply E'; left; eauto). congruence.
    - assert (Y : mget (key [] []) (f_entries g) = Some (template_of (header_entry now p h'))).
      { apply E'. right. split; [|auto]. intros x I. apply X. apply (Permutation_in x (Permutation_sym Pm) I). }
      congruence. }
  exists t1, t2, g1, g2. do 4 (split; [assumption|]). split.
  - intros k. split; [apply (Sym l2 l1 g2 g1 h2 h1 (Permutation_sym Pm) E2 E1)|apply (Sym l1 l2 g1 g2 h1 h2 Pm E1 E2)].
  - intros k m1 m2 X1 X2 Pl. apply E1 in X1 as [(a & A & ->)|(N & -> & ->)]; apply E2 in X2 as [(b & Bm & ->)|(N' & Ek & ->)].
    + cbn [template_of e_cmts e_plural] in *. eapply merged_bag; eauto.
    + exfalso. subst k. destruct A as (e & F & _). apply first_in in F as [I Ke]. apply (N' e); [|exact Ke].
      apply (Permutation_in e Pm I).
    + exfalso. destruct Bm as (e & F & _). apply first_in in F as [I Ke]. apply (N e); [|exact Ke].
      apply (Permutation_in e (Permutation_sym Pm) I).
    + cbn [template_of e_cmts header_entry]. apply Permutation_refl.
Qed.
End Runs.
