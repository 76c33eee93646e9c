(** Properties C27, C31 and C92: the order of the entries of a saved catalog. *)
From Coq Require Import Lia ZifyBool ZifyNat ZifyN Permutation.
From Verif Require Import GoStr GoStrFacts GoMap GoMapFacts FileModel FileSpec FileFacts PoModel PoSpec PoReadFacts
  PoSameFacts PoWriteFacts PoCatalogFacts SortFacts XtSpec PoGramSpec PoOutFacts MoModel MoSpec MoFacts MoCatalogFacts PoAnySpec
  PoAnyFacts PropertiesPo PropertiesOut PropertiesMo OrderSpec OrderFacts.

(** ** C92: what the order is *)
(** every entry has one order text *)
Theorem C92_text : forall e, exists t, order_text e t /\ forall t', order_text e t' -> t' = t.
Proof.
  intros e. exists (sort_key e). split; [apply order_text_key; reflexivity|]. intros t' H. apply order_text_key, H.
Qed.
Print Assumptions C92_text.
(** a saved file has the entries in the order of their texts *)
Theorem C92_po : forall isp f out, saves_po isp f out -> (forall e, In e (vals (f_entries f)) -> po_ok e) ->
  exists es lss, Permutation es (vals (f_entries f)) /\ in_order es /\ Forall2 lays es lss /\ out = blocks lss.
Proof.
  intros isp f out W Ok. destruct (saved_po isp f out W Ok) as (es & lss & [P St] & L & E).
  exists es, lss. split; [exact P|]. split; [apply in_order_sorted, St|]. auto.
Qed.
Print Assumptions C92_po.
Theorem C92_template : forall isp f out, saves_pot isp f out -> (forall e, In e (vals (f_entries f)) -> pot_ok e) ->
  exists es lss, Permutation es (vals (f_entries f)) /\ in_order es /\ Forall2 lays (map template_of es) lss /\ out = blocks lss.
Proof.
  intros isp f out W Ok. destruct (saved_pot isp f out W Ok) as (es & lss & [P St] & L & E).
  exists es, lss. split; [exact P|]. split; [apply in_order_sorted, St|]. auto.
Qed.
Print Assumptions C92_template.
Lemma mo_saved l f : Permutation l (vals (f_entries f)) -> sorted_by_key l -> (N.of_nat (length (mo_bytes l)) < 2 ^ 32)%N ->
  exists ids strs, in_order l /\ Forall2 stored_id l ids /\ Forall2 stored_str l strs /\ stores LE (mo_bytes l) ids strs.
Proof.
  intros P St L. exists (map mo_id l), (map mo_str l). split; [apply in_order_sorted, St|].
  split; [apply (Forall2_fun _ _ stored_id_fun); reflexivity|]. split; [apply (Forall2_fun _ _ stored_str_fun); reflexivity|].
  apply mo_stores, L.
Qed.
Theorem C92_mo : forall f out, saves_mo f out -> (N.of_nat (length out) < 2 ^ 32)%N ->
  exists es ids strs, Permutation es (vals (f_entries f)) /\ in_order es
    /\ Forall2 stored_id es ids /\ Forall2 stored_str es strs /\ stores LE out ids strs.
Proof.
  intros f out (l & [P St] & ->) L. destruct (mo_saved l f P St L) as (ids & strs & H). exists l, ids, strs. auto.
Qed.
Print Assumptions C92_mo.
(** and every such order may be the one of a saved file *)
Theorem C92_every : forall isp f es, Permutation es (vals (f_entries f)) -> in_order es ->
  (forall e, In e (vals (f_entries f)) -> po_ok e) ->
  (exists out lss, saves_po isp f out /\ Forall2 lays es lss /\ out = blocks lss)
  /\ (exists out lss, saves_pot isp f out /\ Forall2 lays (map template_of es) lss /\ out = blocks lss)
  /\ exists out, saves_mo f out /\ ((N.of_nat (length out) < 2 ^ 32)%N ->
       exists ids strs, Forall2 stored_id es ids /\ Forall2 stored_str es strs /\ stores LE out ids strs).
Proof.
  intros isp f es P O Ok. apply in_order_sorted in O.
  assert (I : forall e, In e es -> po_ok e) by (intros e H; apply Ok, (Permutation_in e P), H).
  split; [|split].
  - exists (concat (map (po_entry isp) es)), (map (po_block isp) es). split; [exists es; split; [split|]; auto|].
    split; [apply forall2_map; intros e H; apply po_block_lays, I, H|]. 
    unfold blocks. change text with text_of. rewrite <- (blocks_text _ _ _ (po_lines_block isp)). f_equal. apply map_ext. intros e. apply po_entry_lines.
  - exists (concat (map (pot_entry isp) es)), (map (pot_block isp) es). split; [exists es; split; [split|]; auto|]. split.
    + assert (H : Forall2 (fun e ls => lays (template_of e) ls) es (map (pot_block isp) es)).
      { apply forall2_map. intros e H. apply pot_block_lays. destruct (I e H) as (C & Pl & _). split; assumption. }
      clear - H. induction H; cbn [map]; constructor; assumption.
    + unfold blocks. change text with text_of. rewrite <- (blocks_text _ _ _ (pot_lines_block isp)). f_equal. apply map_ext.
      intros e. apply pot_entry_lines.
  - exists (mo_bytes es). split; [exists es; split; [split|]; auto|]. intros L.
    destruct (mo_saved es f P O L) as (ids & strs & _ & H). exists ids, strs. exact H.
Qed.
Print Assumptions C92_every.
(** the header first; then by reference: line numbers by value, columns too *)
Example C92_case :
  order_text ex_header [] /\ order_text (mk [B "# x"; B "#: a.go:7 b.go:+12:3"] (B "c") (B "i") false [] (B "1") [])
    (B "#:a.go         7b.go        12         3" ++ B "c" ++ EOT :: B "i").
Proof. split; apply order_text_key; vm_compute; reflexivity. Qed.

(** ** C27: saving is deterministic exactly if no two entries tie *)
Theorem C27_exactly : forall isp f, filed f ->
  (forall e c, In e (vals (f_entries f)) -> In c (e_cmts e) -> harmless c) ->
  ((forall out out', saves_po isp f out -> saves_po isp f out' -> out = out')
     <-> forall e e', In e (vals (f_entries f)) -> In e' (vals (f_entries f)) -> tied e e' -> e = e')
  /\ ((forall out out', saves_pot isp f out -> saves_pot isp f out' -> out = out')
     <-> forall e e', In e (vals (f_entries f)) -> In e' (vals (f_entries f)) -> tied e e' -> e = e').
Proof.
  intros isp f F G.
  assert (T : NoDup (map sort_key (vals (f_entries f))) <->
    forall e e', In e (vals (f_entries f)) -> In e' (vals (f_entries f)) -> tied e e' -> e = e').
  { pose proof (PoLoadFacts.filed_nodup f F) as N. revert N. generalize (vals (f_entries f)) as l. clear. induction l as [|x l IH]; intros N.
    - split; [intros _ e e' []|intros _; constructor].
    - inversion N as [|x' l' N1 N2]; subst. specialize (IH N2). cbn [map]. split.
      + intros H. inversion H as [|k m H1 H2]; subst. rewrite IH in H2. intros e e' [<-|He] [<-|He'] Te; [reflexivity| | |apply H2; assumption].
        * apply tied_key in Te. exfalso. apply H1. rewrite Te. apply in_map, He'.
        * apply tied_key in Te. exfalso. apply H1. rewrite <- Te. apply in_map, He.
      + intros H. constructor; [|apply IH; intros e e' He He'; apply H; right; assumption].
        intros I. apply in_map_iff in I as (y & Ey & Iy). apply N1.
        rewrite (H x y (or_introl eq_refl) (or_intror Iy)); [exact Iy|]. apply tied_key. congruence. }
  split; rewrite <- T; split.
  - intros U. apply (ties_differ (po_entry isp)); [exact F| |].
    + intros e e' He He'. apply po_no_swap. intros c [H|H]; [exact (G e c He H)|exact (G e' c He' H)].
    + intros l l' L L'. apply U; [exists l|exists l']; auto.
  - intros N. apply (C27_deterministic_partial isp f N).
  - intros U. apply (ties_differ (pot_entry isp)); [exact F| |].
    + intros e e' He He'. apply pot_no_swap. intros c [H|H]; [exact (G e c He H)|exact (G e' c He' H)].
    + intros l l' L L'. apply U; [exists l|exists l']; auto.
  - intros N. apply (C27_deterministic_partial isp f N).
Qed.
Print Assumptions C27_exactly.
(** a .mo file has only the two strings of an entry: it may tie with one that has the same strings *)
Theorem C27_mo_exactly : forall f, filed f -> (forall out, saves_mo f out -> (N.of_nat (length out) < 2 ^ 32)%N) ->
  ((forall out out', saves_mo f out -> saves_mo f out' -> out = out')
     <-> forall e e', In e (vals (f_entries f)) -> In e' (vals (f_entries f)) -> tied e e' ->
           exists s t, stored_id e s /\ stored_id e' s /\ stored_str e t /\ stored_str e' t).
Proof.
  intros f F L. split.
  - intros U e e' He He' Te. exists (mo_id e), (mo_str e).
    assert (D : e = e' \/ mo_id e = mo_id e' /\ mo_str e = mo_str e').
    { destruct (bytes_dec (e_key e) (e_key e')) as [K|K].
      { left. apply filed_in in He, He'; [|exact F|exact F]. rewrite K in He. congruence. }
      right. apply tied_key in Te.
      destruct (before_possible f e e' He He') as (a & b & c & [P St]); [congruence|rewrite Te; apply bltb_irrefl|].
      assert (Sw : sorted_entries f (a ++ e' :: b ++ e :: c)).
      { split.
        - etransitivity; [|exact P]. apply Permutation_app_head.
          etransitivity; [apply Permutation_cons; [reflexivity|]; apply Permutation_sym, Permutation_middle|].
          etransitivity; [apply perm_swap|]. apply Permutation_cons; [reflexivity|]. apply Permutation_middle.
        - refine (sorted_ext _ _ _ St). rewrite !map_app. cbn [map]. rewrite !map_app. cbn [map]. rewrite Te. reflexivity. }
      assert (W1 : saves_mo f (mo_bytes (a ++ e :: b ++ e' :: c))) by (eexists; split; [split; eassumption|reflexivity]).
      assert (W2 : saves_mo f (mo_bytes (a ++ e' :: b ++ e :: c))) by (eexists; split; [exact Sw|reflexivity]).
      pose proof (U _ _ W1 W2) as E. pose proof (mo_stores _ (L _ W1)) as Q1. pose proof (mo_stores _ (L _ W2)) as Q2.
      rewrite <- E in Q2. destruct (stores_fun _ _ _ _ _ _ _ Q1 Q2) as (_ & E1 & E2).
      rewrite !map_app in E1, E2. apply app_inv_head in E1, E2. cbn [map] in E1, E2. injection E1 as E1 _. injection E2 as E2 _. auto. }
    destruct D as [<-|[E1 E2]].
    + repeat split; first [apply stored_id_fun|apply stored_str_fun]; reflexivity.
    + split; [apply stored_id_fun; reflexivity|]. split; [apply stored_id_fun; congruence|].
      split; [apply stored_str_fun; reflexivity|apply stored_str_fun; congruence].
  - intros H out out' (l & [P St] & ->) (l' & [P' St'] & ->).
    assert (K : map sort_key l = map sort_key l').
    { apply sorted_keys; [|exact St|exact St']. apply Permutation_map. etransitivity; [exact P|symmetry; exact P']. }
    assert (I : forall e, In e l -> In e (vals (f_entries f))) by (intros e; apply Permutation_in, P).
    assert (I' : forall e, In e l' -> In e (vals (f_entries f))) by (intros e; apply Permutation_in, P').
    assert (E : map mo_id l = map mo_id l' /\ map mo_str l = map mo_str l').
    { clear P P' St St' L. revert l' K I'. induction l as [|e l IH]; intros [|e' l'] K I'; try discriminate; [auto|].
      cbn [map] in *. injection K as K1 K2.
      destruct (H e e' (I e (or_introl eq_refl)) (I' e' (or_introl eq_refl)) (proj2 (tied_key e e') K1)) as (s & t & A1 & A2 & B1 & B2).
      apply stored_id_fun in A1, A2. apply stored_str_fun in B1, B2.
      destruct (IH (fun x Hx => I x (or_intror Hx)) l' K2 (fun x Hx => I' x (or_intror Hx))) as [-> ->]. split; congruence. }
    apply mo_bytes_same; apply E.
Qed.
Print Assumptions C27_mo_exactly.
(** the entries of [C27_ties_refuted] tie, those of [C27_case] do not *)
Example C27_exactly_case :
  tied (mk [B "#:a"] [] (B "z") false [] (B "1") []) (mk [] (B "#:a") (B "z") false [] (B "2") [])
  /\ ~ tied (mk [B "#: a:10"] [] (B "x") false [] (B "1") []) (mk [B "#: a:9"] [] (B "x") false [] (B "1") []).
Proof. split; [apply tied_key; vm_compute; reflexivity|]. intros H. apply tied_key in H. vm_compute in H. discriminate. Qed.

(** ** C31: the table of a .mo file is sorted exactly if the order of the texts is that of the ids *)
Theorem C31_exactly : forall f, filed f -> (forall out, saves_mo f out -> (N.of_nat (length out) < 2 ^ 32)%N) ->
  ((forall out ids strs i j s s', saves_mo f out -> stores LE out ids strs -> (i < j)%nat ->
      nth_error ids i = Some s -> nth_error ids j = Some s' -> lex_less s s')
   <-> forall e e' t t' s s', In e (vals (f_entries f)) -> In e' (vals (f_entries f)) -> e <> e' ->
         order_text e t -> order_text e' t' -> ~ lex_less t' t -> stored_id e s -> stored_id e' s' -> lex_less s s').
Proof.
  intros f F L. split.
  - intros H e e' t t' s s' He He' N Ht Ht' Nl Hs Hs'. apply order_text_key in Ht, Ht'. apply stored_id_fun in Hs, Hs'. subst.
    destruct (before_possible f e e' He He' N) as (a & b & c & So).
    { destruct (bltb (sort_key e') (sort_key e)) eqn:E; [|reflexivity]. exfalso. apply Nl, lex_less_bltb, E. }
    assert (W : saves_mo f (mo_bytes (a ++ e :: b ++ e' :: c))) by (eexists; split; [exact So|reflexivity]).
    apply (H _ _ _ (length a) (length a + S (length b))%nat _ _ W (mo_stores _ (L _ W))); [lia| |].
    + rewrite map_app, nth_error_app2 by (rewrite map_length; lia). rewrite map_length, Nat.sub_diag. reflexivity.
    + rewrite map_app, nth_error_app2 by (rewrite map_length; lia). rewrite map_length. cbn [map].
      replace (length a + S (length b) - length a)%nat with (S (length b)) by lia. cbn [nth_error].
      rewrite map_app, nth_error_app2 by (rewrite map_length; lia). rewrite map_length, Nat.sub_diag. reflexivity.
  - intros H out ids strs i j s s' W St Lt Hi Hj. pose proof (L _ W) as Lo. destruct W as (l & [P So] & ->).
    destruct (stores_fun _ _ _ _ _ _ _ St (mo_stores l Lo)) as (_ & -> & _).
    rewrite nth_error_map in Hi, Hj. destruct (nth_error l i) as [e|] eqn:Ei; [|discriminate]. destruct (nth_error l j) as [e'|] eqn:Ej; [|discriminate].
    cbn [option_map] in Hi, Hj. injection Hi as <-. injection Hj as <-.
    assert (I : In e (vals (f_entries f)) /\ In e' (vals (f_entries f)))
      by (split; apply (Permutation_in _ P); eapply nth_error_In; eassumption).
    apply (H e e' (sort_key e) (sort_key e')); try apply order_text_key; try apply stored_id_fun; try apply I; try reflexivity.
    + intros E. pose proof (nodup_keys f l F P) as N. apply NoDup_map_inv in N. rewrite NoDup_nth_error in N.
      assert (i = j); [|lia]. apply N; [apply nth_error_Some; congruence|congruence].
    + intros Q. apply lex_less_bltb in Q. clear - So Ei Ej Lt Q. revert i j Ei Ej Lt. induction l as [|x l IH]; intros i j Ei Ej Lt;
        [destruct i; discriminate|]. destruct So as [S1 S2]. destruct j as [|j]; [lia|]. cbn [nth_error] in Ej.
      destruct i as [|i].
      * injection Ei as ->. rewrite (S1 e') in Q; [discriminate|]. eapply nth_error_In, Ej.
      * apply (IH S2 i j Ei Ej). lia.
Qed.
Print Assumptions C31_exactly.
(** a catalog as the theorems of this file ask for: one .mo text, one .po text, no
    two entries tie; with the entry of line 9 before that of line 10 its ids are not
    sorted, without references they are *)
Definition lined (n : string) (i : bytes) : entry := mk [B n] [] i false [] (B "1") [].
Definition ex_lined : file := fold_left add_entry [ex_header; lined "#: a:10" (B "x"); lined "#: a:9" (B "y")] new_file.
Definition ex_plain : file := fold_left add_entry [ex_header; lined "# c" (B "y"); lined "# c" (B "x")] new_file.
Lemma ex_one f l : sorted_entries f l -> NoDup (map sort_key l) -> forall out, saves_mo f out -> out = mo_bytes l.
Proof.
  intros [P So] N out (l' & [P' So'] & ->). f_equal. symmetry. apply sorted_unique; [|exact N|exact So|exact So'].
  apply (Permutation_trans P), Permutation_sym, P'.
Qed.
Definition lined_order := [ex_header; lined "#: a:9" (B "y"); lined "#: a:10" (B "x")].
Definition plain_order := [ex_header; lined "# c" (B "x"); lined "# c" (B "y")].
Lemma ex_sorted : (sorted_entries ex_lined lined_order /\ NoDup (map sort_key lined_order))
  /\ (sorted_entries ex_plain plain_order /\ NoDup (map sort_key plain_order)).
Proof.
  assert (Nb : forall a b : bytes, beq a b = false -> a <> b) by (intros a b E ->; rewrite beq_refl in E; discriminate).
  repeat split; try exact I; try (repeat constructor; cbn [map In]; intros H; repeat (destruct H as [H|H]; [apply Nb in H; [exact H|vm_compute; reflexivity]|]); exact H).
  all: try (intros x H; repeat (destruct H as [<-|H]; [vm_compute; reflexivity|]); destruct H).
  all: apply perm_skip, perm_swap.
Qed.
Example C31_exactly_case : forall f l, (f, l) = (ex_lined, lined_order) \/ (f, l) = (ex_plain, plain_order) ->
  filed f /\ (forall e, In e (vals (f_entries f)) -> po_ok e) /\ (exists out, saves_po (fun _ => true) f out) /\ (exists out, saves_mo f out)
  /\ (forall out, saves_mo f out -> out = mo_bytes l /\ (N.of_nat (length out) < 2 ^ 32)%N)
  /\ (f = ex_plain <-> forall e e' t t' s s', In e (vals (f_entries f)) -> In e' (vals (f_entries f)) -> e <> e' ->
         order_text e t -> order_text e' t' -> ~ lex_less t' t -> stored_id e s -> stored_id e' s' -> lex_less s s').
Proof.
  intros f l H. destruct ex_sorted as [[S1 N1] [S2 N2]].
  assert (Q : sorted_entries f l /\ NoDup (map sort_key l) /\ (N.of_nat (length (mo_bytes l)) < 2 ^ 32)%N)
    by (destruct H as [[= -> ->]|[= -> ->]]; (split; [assumption|]; split; [assumption|vm_compute; reflexivity])).
  destruct Q as (So & N & L). split; [|split; [|split; [|split; [|split]]]].
  - apply built_filed. destruct H as [[= -> ->]|[= -> ->]]; eexists; reflexivity.
  - assert (Ab : forall x k, existsb (Ascii.eqb x) k = false -> ~ In x k).
    { intros x k E J. assert (existsb (Ascii.eqb x) k = true) by (apply existsb_exists; exists x; split; [exact J|apply Ascii.eqb_refl]). congruence. }
    destruct H as [[= -> ->]|[= -> ->]]; intros e He; repeat (destruct He as [<-|He]; [|]); try destruct He; unfold po_ok; cbn;
      (split; [|auto]); intros c Hc; repeat (destruct Hc as [<-|Hc]; [split; [eexists; reflexivity|split; apply Ab; vm_compute; reflexivity]|]); destruct Hc.
  - eexists. exists l. split; [exact So|reflexivity].
  - eexists. exists l. split; [exact So|reflexivity].
  - intros out W. rewrite (ex_one f l So N out W). split; [reflexivity|exact L].
  - destruct H as [[= -> ->]|[= -> ->]]; split.
    + discriminate.
    + intros H. exfalso.
      specialize (H (lined "#: a:9" (B "y")) (lined "#: a:10" (B "x")) (sort_key (lined "#: a:9" (B "y"))) (sort_key (lined "#: a:10" (B "x"))) (B "y") (B "x")).
      assert (X : lex_less (B "y") (B "x")).
      { apply H; [right; right; left; reflexivity|right; left; reflexivity|discriminate|apply order_text_key; reflexivity|apply order_text_key; reflexivity| | |].
        - intros Q. apply lex_less_bltb in Q. vm_compute in Q. discriminate.
        - apply stored_id_fun. reflexivity.
        - apply stored_id_fun. reflexivity. }
      apply lex_less_bltb in X. vm_compute in X. discriminate.
    + intros _ e e' t t' s s' He He' Ne Ht Ht' Nl Hs Hs'. apply order_text_key in Ht, Ht'. apply stored_id_fun in Hs, Hs'. subst. apply lex_less_bltb.
      repeat (destruct He as [<-|He]); repeat (destruct He' as [<-|He']); try destruct He; try destruct He'; try congruence;
        solve [vm_compute; reflexivity|exfalso; apply Nl, lex_less_bltb; vm_compute; reflexivity].
    + reflexivity.
Qed.

Lemma comment_ok_harmless c : comment_ok c -> harmless c.
Proof.
  intros (St & N & R) l Hl. unfold file_lines in Hl.
  change (filter (fun x => negb (Ascii.eqb x CR)) c) with (remove_byte CR c) in Hl. rewrite remove_byte_no in Hl by exact R.
  rewrite split_byte_no in Hl by exact N. destruct Hl as [<-|[]]. right. exact St.
Qed.
(** ** C65: saving again what was read back gives the same bytes exactly if no
    two entries tie ... *)
Theorem C65_stable_exactly : forall isp content f, read_po content = PoOk f -> f_entries f <> [] ->
  ((forall out f' out', saves_po isp f out -> read_po out = PoOk f' -> saves_po isp f' out' -> out' = out)
   <-> forall e e', In e (vals (f_entries f)) -> In e' (vals (f_entries f)) -> tied e e' -> e = e').
Proof.
  intros isp content f R Ne. pose proof (read_built _ _ _ R) as Bf. pose proof (built_filed _ Bf) as F.
  assert (G : forall e c, In e (vals (f_entries f)) -> In c (e_cmts e) -> harmless c).
  { destruct (proj1 (saves_exist isp f)) as [o So]. destruct (PoLoadFacts.load_filed isp content f o R Ne So) as (_ & _ & H).
    intros e c He Hc. apply comment_ok_harmless, (proj1 (H e He)), Hc. }
  destruct (C27_exactly isp f F G) as [D _]. rewrite <- D. split.
  - intros U out out' W W'. destruct (PoLoadFacts.load_reread isp content f out R Ne W) as (l & _ & _ & R' & E).
    symmetry. apply (U out _ out' W R'). destruct W' as (l' & [P' So'] & ->). exists l'. split; [|reflexivity]. split; [|exact So'].
    apply (Permutation_trans P'), Permutation_sym.
    apply PoLoadFacts.filed_same; [exact (built_filed _ (read_built _ _ _ R'))|exact F|exact E].
  - intros U out f' out' W R' W'. apply U; [|exact W]. destruct (PoLoadFacts.load_reread isp content f out R Ne W) as (l & _ & _ & R2 & E).
    rewrite R' in R2. injection R2 as ->. destruct W' as (l' & [P' So'] & ->). exists l'. split; [|reflexivity]. split; [|exact So'].
    apply (Permutation_trans P').
    apply PoLoadFacts.filed_same; [exact (built_filed _ (read_built _ _ _ R'))|exact F|exact E].
Qed.
Print Assumptions C65_stable_exactly.
(** ... and the same answers exactly if the headers answered are those of the
    header entry that is saved *)
Theorem C65_answers_exactly : forall isp content f out,
  read_po content = PoOk f -> f_entries f <> [] -> saves_po isp f out ->
  (forall e, In e (vals (f_entries f)) -> e_id e = [] -> e_ctxt e = []) ->
  ((exists f', read_po out = PoOk f' /\ same_answers f f')
   <-> forall k, fst (get_header k f) = header_value (f_x (fun s (_ : list nat) => s) f [] [] []) k).
Proof.
  intros isp content f out R Ne W One. split; [|intros H; exact (C65_answers_partial isp content f out R Ne W One H)].
  intros (f' & R' & _ & _ & H & _) k. destruct (PoLoadFacts.load_reread isp content f out R Ne W) as (l & So & _ & R2 & E).
  rewrite R' in R2. injection R2 as ->. rewrite H. eapply PoLoadFacts.load_headers; eassumption.
Qed.
Print Assumptions C65_answers_exactly.
(** the file of [C65_case] meets the hypotheses and both conditions; that of [C65_headers_refuted] has another first header *)
Example C65_exactly_case : exists f,
  read_po (B "msgid """"" ++ NL :: B "msgstr ""Language: de\n""" ++ NL :: B "# c" ++ CR :: NL :: B "msgid ""a""" ++ NL :: B "msgstr ""b""") = PoOk f
  /\ f_entries f <> [] /\ (exists out, saves_po (fun _ => true) f out) /\ (forall e, In e (vals (f_entries f)) -> e_id e = [] -> e_ctxt e = [])
  /\ (forall e e', In e (vals (f_entries f)) -> In e' (vals (f_entries f)) -> tied e e' -> e = e')
  /\ fst (get_header (B "Language") f) = Some (B "de")
  /\ header_value (f_x (fun s (_ : list nat) => s) f [] [] []) (B "Language") = Some (B "de").
Proof.
  eexists. split; [vm_compute; reflexivity|]. split; [discriminate|]. split; [apply saves_exist|].
  split; [intros e [<-|[<-|[]]]; [reflexivity|discriminate]|].
  split; [|split; vm_compute; reflexivity].
  intros e e' [<-|[<-|[]]] [<-|[<-|[]]] T; try reflexivity; apply tied_key in T; vm_compute in T; discriminate.
Qed.
