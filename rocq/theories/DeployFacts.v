(** A catalog, its saved forms, and what is read back. *)
From Coq Require Import Permutation Lia.
From Verif Require Import GoStr GoStrFacts GoMap GoMapFacts FileModel FileSpec FileFacts PoModel PoSpec PoReadFacts PoWriteFacts PoCatalogFacts MoModel MoSpec MoFacts MoCatalogFacts.
Local Open Scope N_scope.

Definition catalog (es : list entry) : file := fold_left add_entry es new_file.
Lemma catalog_filed es : filed (catalog es).
Proof. apply built_filed. exists es. reflexivity. Qed.
Lemma catalog_in es e : In e (vals (f_entries (catalog es))) -> In e es.
Proof.
  intros I. apply filed_in in I; [|apply catalog_filed]. pose proof (fold_all es (e_key e)) as H. unfold catalog in I. rewrite I in H. apply H.
Qed.
Lemma catalog_nonempty es : es <> [] -> f_entries (catalog es) <> [].
Proof.
  destruct es as [|e es]; [congruence|]. intros _ E. pose proof (fold_all (e :: es) (e_key e)) as H. unfold catalog in E. rewrite E in H.
  apply (H e); [left; reflexivity|reflexivity].
Qed.
(** the catalog read is the catalog, except for untranslated entries *)
Definition nearly (f' f : file) : Prop :=
  forall k, agree (mget k (f_entries f')) (mget k (f_entries f))
    \/ (mget k (f_entries f') = None /\ exists e, mget k (f_entries f) = Some e /\ ~ translated e).
Section Deploy.
Variable es : list entry.
Hypothesis Nd : NoDup (map e_key es).
Hypothesis Hd : forall e, In e es -> e_id e = [] -> e_ctxt e = [].
Lemma catalog_canon : canon (catalog es).
Proof. apply canon_fold; assumption. Qed.
Lemma deploy_po isp out : es <> [] -> (forall e, In e es -> po_ok e) -> saves_po isp (catalog es) out ->
  exists f', read_po out = PoOk f' /\ canon f' /\ nearly f' (catalog es).
Proof.
  intros Ne Ok Sv. pose proof (catalog_filed es) as F.
  assert (Gp : forall e, In e (vals (f_entries (catalog es))) -> po_ok e) by (intros e I; apply Ok, catalog_in, I).
  destruct (po_round_trip isp _ out F Gp (catalog_nonempty es Ne) Sv) as (f1 & R1 & F1 & Q1).
  exists f1. split; [exact R1|]. split.
  - destruct Sv as (l & [P S] & ->).
    assert (Nl : l <> []).
    { intros ->. apply Permutation_nil in P. unfold vals in P. apply map_eq_nil in P. apply (catalog_nonempty es Ne P). }
    rewrite (read_po_text isp l Nl) in R1 by (intros x Hx; apply Gp, (Permutation_in x P), Hx).
    assert (E : f1 = fold_left (addif false) l new_file) by congruence. rewrite E, fold_filter.
    apply canon_fold; [apply nodup_filter, (nodup_keys _ l F P)|].
    intros e He. apply filter_In in He as [He _]. apply Hd, catalog_in, (Permutation_in e P), He.
  - intros k. destruct (mget k (f_entries (catalog es))) as [e|] eqn:E.
    + destruct (is_valid e) eqn:V.
      * left. apply translated_valid in V. rewrite (proj2 (Q1 k e) (conj E V)). reflexivity.
      * right. assert (T : ~ translated e) by (rewrite <- translated_valid; congruence). split; [|exists e; auto].
        destruct (mget k (f_entries f1)) as [x|] eqn:E1; [|reflexivity]. exfalso. apply Q1 in E1 as [E1 T1]. congruence.
    + left. destruct (mget k (f_entries f1)) as [x|] eqn:E1; [|reflexivity]. apply Q1 in E1 as [E1 T1]. congruence.
Qed.
Lemma deploy_mo out : (forall e, In e es -> mo_ok e) -> saves_mo (catalog es) out -> N.of_nat (length out) < 2 ^ 32 ->
  exists f', read_mo out = MoOk f' /\ canon f' /\ forall k, agree (mget k (f_entries f')) (mget k (f_entries (catalog es))).
Proof.
  intros Ok Sv L. pose proof (catalog_filed es) as F.
  assert (Gm : forall e, In e (vals (f_entries (catalog es))) -> mo_ok e) by (intros e I; apply Ok, catalog_in, I).
  destruct (mo_round_trip _ out F Gm Sv L) as (f1 & R1 & F1 & Q1). exists f1. split; [exact R1|]. split.
  - destruct Sv as (l & [P S] & ->).
    rewrite read_mo_bytes in R1 by (assumption || (intros x Hx; apply Gm, (Permutation_in x P), Hx)).
    assert (E : f1 = fold_left add_entry (map strip l) new_file) by congruence. rewrite E. apply canon_fold.
    + rewrite map_map. exact (nodup_keys _ l F P).
    + intros e He. apply in_map_iff in He as (x & <- & Hx). cbn [strip e_id e_ctxt]. apply Hd, catalog_in, (Permutation_in x P), Hx.
  - intros k. unfold agree. rewrite Q1. destruct (mget k (f_entries (catalog es))); reflexivity.
Qed.
Lemma nearly_lang f' : canon f' -> nearly f' (catalog es) -> fst (lang f') = fst (lang (catalog es)).
Proof.
  intros C N. pose proof (agree_headers f' _ N) as H. pose proof (canon_header f' H_language C) as A1.
  pose proof (canon_header (catalog es) H_language catalog_canon) as A2. rewrite <- H, <- A1 in A2. unfold lang.
  destruct (get_header H_language f'), (get_header H_language (catalog es)). cbn [fst] in *. congruence.
Qed.
End Deploy.
