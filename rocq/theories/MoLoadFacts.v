(** Catalogs that were read from .mo files. *)
From Coq Require Import Lia ZifyBool ZifyNat ZifyN Permutation.
From Verif Require Import GoStr GoStrFacts GoMap GoMapFacts FileModel FileSpec FileFacts FormsFacts PoModel PoSpec PoReadFacts
  SortFacts PoSameFacts PoWriteFacts PoCatalogFacts MoModel MoSpec MoFacts MoCatalogFacts MoAnySpec MoAnyFacts PoLoadFacts.
Local Open Scope N_scope.

Lemma catalog_adds ids strs : catalog_of ids strs = fold_left add_entry (map (fun p => mo_entry (fst p) (snd p)) (combine ids strs)) new_file.
Proof.
  unfold catalog_of. generalize new_file as f. induction (combine ids strs) as [|p l IH]; intros f; [reflexivity|]. cbn [map fold_left]. apply IH.
Qed.
Lemma loaded_means bo c ids strs f e : stores bo c ids strs -> f = catalog_of ids strs -> In e (vals (f_entries f)) ->
  exists id str, In id ids /\ In str strs /\ means id str e.
Proof.
  intros _ -> I. rewrite catalog_adds in I. apply vals_adds, in_map_iff in I as ([id str] & <- & I). exists id, str.
  split; [exact (in_combine_l _ _ _ _ I)|]. split; [exact (in_combine_r _ _ _ _ I)|]. apply means_iff. reflexivity.
Qed.
(** the shape of an entry that was read *)
Lemma means_shape id str e : means id str e ->
  e_cmts e = [] /\ ~ In EOT (e_ctxt e) /\ ~ In NUL (e_id e)
  /\ (if e_plural e then e_str e = [] /\ e_strn e <> [] /\ (forall s, In s (e_strn e) -> ~ In NUL s)
      else e_id2 e = [] /\ e_strn e = []).
Proof.
  intros (C & id1 & H1 & H2). split; [exact C|]. split.
  - destruct (existsb (Ascii.eqb EOT) id); [apply H1|]. destruct H1 as [-> _]. intros [].
  - destruct (existsb (Ascii.eqb NUL) id1) eqn:E.
    + destruct H2 as (_ & H2 & -> & H3 & _ & H4 & H5). auto.
    + destruct H2 as (-> & H3 & -> & _ & H4). split; [|auto]. rewrite <- existsb_in. congruence.
Qed.
Lemma means_po_ok id str e : means id str e -> po_ok e.
Proof.
  intros M. apply means_shape in M as (C & _ & _ & H). split; [rewrite C; intros c []|].
  destruct (e_plural e); [|tauto]. split; [auto|]. left. apply H.
Qed.
Lemma means_mo_ok id str e : means id str e ->
  (mo_ok e <-> (e_ctxt e = [] -> ~ In EOT (e_id e) /\ ~ In EOT (e_id2 e))).
Proof. intros M. apply means_shape in M as (_ & C & I & H). unfold mo_ok. tauto. Qed.
Lemma means_start id str e : means id str e -> ~ starts [EOT] id -> e_ctxt e = [] -> ~ In EOT (e_id e) /\ ~ In EOT (e_id2 e).
Proof.
  intros (_ & id1 & H1 & H2) St C. destruct (existsb (Ascii.eqb EOT) id) eqn:E.
  - destruct H1 as [H1 _]. rewrite C in H1. exfalso. apply St. exists id1. exact H1.
  - destruct H1 as [_ ->]. assert (N : ~ In EOT id) by (rewrite <- existsb_in; congruence).
    destruct (existsb (Ascii.eqb NUL) id).
    + destruct H2 as (-> & _). split; intros Q; apply N, in_or_app; [left; exact Q|right; right; exact Q].
    + destruct H2 as (-> & -> & _). split; [exact N|intros []].
Qed.
Lemma strip_same e : e_cmts e = [] -> strip e = e.
Proof. intros H. destruct e. cbn in *. subst. reflexivity. Qed.
Lemma loaded_key e : e_cmts e = [] -> sort_key e = if is_header e then [] else e_key e.
Proof. intros H. unfold sort_key, line_string. rewrite H. reflexivity. Qed.
(** the header that counts when the entries are added in the order in which they are saved *)
Lemma sorted_headers f l k : filed f -> (forall e, In e (vals (f_entries f)) -> e_id e = [] -> e_ctxt e = []) -> sorted_entries f l ->
  fst (get_header k (fold_left add_entry l new_file)) = header_value (head_text f) k.
Proof.
  intros F One [P Sl].
  assert (C : canon (fold_left add_entry l new_file)).
  { apply canon_fold; [exact (nodup_keys f l F P)|]. intros e He. apply One, (Permutation_in e P), He. }
  rewrite (canon_header _ k C). unfold hdrs, head_text, f_x, raw.
  assert (E : mget (key [] []) (f_entries (fold_left add_entry l new_file)) = mget (key [] []) (f_entries f)).
  { pose proof (fold_all l (key [] [])) as H. destruct (mget (key [] []) (f_entries (fold_left add_entry l new_file))) as [e|].
    - destruct H as [H K]. symmetry. rewrite <- K. apply filed_in; [exact F|]. apply (Permutation_in e P), H.
    - destruct (mget (key [] []) (f_entries f)) as [e|] eqn:E; [|reflexivity]. exfalso.
      pose proof (filed_get f _ e F E) as K. apply (H e); [|symmetry; exact K].
      apply (Permutation_in e (Permutation_sym P)). apply filed_in; [exact F|]. rewrite <- K. exact E. }
  rewrite E. destruct (mget (key [] []) (f_entries f)) as [e|]; [|reflexivity]. rewrite parse_headers_get.
  destruct (e_str e); reflexivity.
Qed.

Section Load.
Variables (content : bytes) (f : file).
Hypothesis R : read_mo content = MoOk f.
Lemma mo_load_filed : built f /\ filed f.
Proof. pose proof (read_mo_built _ _ R) as B. split; [exact B|apply built_filed, B]. Qed.
Lemma mo_load_means e : In e (vals (f_entries f)) -> exists id str, means id str e.
Proof.
  intros I. destruct (proj1 (read_mo_spec _ _) R) as (bo & ids & strs & Q & E).
  destruct (loaded_means _ _ _ _ _ _ Q E I) as (id & str & _ & _ & M). eauto.
Qed.
Lemma mo_load_cmts e : In e (vals (f_entries f)) -> e_cmts e = [].
Proof. intros I. destruct (mo_load_means e I) as (id & str & M). apply (means_shape _ _ _ M). Qed.
Lemma mo_load_strip k : option_map strip (mget k (f_entries f)) = mget k (f_entries f).
Proof.
  destruct (mget k (f_entries f)) as [e|] eqn:E; [|reflexivity]. cbn [option_map]. f_equal. apply strip_same, mo_load_cmts.
  pose proof (filed_get _ _ _ (proj2 mo_load_filed) E) as ->. apply filed_in; [apply mo_load_filed|exact E].
Qed.
Lemma mo_load_sort e e' : In e (vals (f_entries f)) -> In e' (vals (f_entries f)) -> sort_key e = sort_key e' ->
  e = e' \/ e_id e = [] /\ e_id e' = [].
Proof.
  intros I I' K. rewrite !loaded_key in K by (apply mo_load_cmts; assumption). unfold is_header in K.
  assert (D : forall x, e_key x <> []) by (intros x; unfold e_key, key; destruct (e_ctxt x); discriminate).
  destruct (e_id e) as [|a i] eqn:E1, (e_id e') as [|b j] eqn:E2; cbn [is_empty] in K.
  - right. auto.
  - exfalso. exact (D e' (eq_sym K)).
  - exfalso. exact (D e K).
  - left. apply filed_in in I, I'; try apply mo_load_filed. rewrite K in I. congruence.
Qed.
End Load.
