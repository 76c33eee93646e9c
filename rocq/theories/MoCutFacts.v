(** Which prefixes of a saved .mo file are accepted. *)
From Coq Require Import Lia ZifyBool ZifyNat ZifyN Permutation.
From Verif Require Import GoStr GoStrFacts GoMap GoMapFacts FileModel FileSpec FileFacts PoModel PoSpec PoReadFacts
  SortFacts PoSameFacts PoWriteFacts PoCatalogFacts MoModel MoSpec MoFacts MoCatalogFacts.
Local Open Scope N_scope.

Lemma bytes_at_prefix p q i s : bytes_at (p ++ q) i s -> i + len s <= len p -> bytes_at p i s.
Proof.
  intros (a & b & E & L) H. assert (Lp : (length (a ++ s) <= length p)%nat) by (rewrite app_length; unfold len in *; lia).
  exists a, (skipn (length (a ++ s)) p). split; [|exact L]. rewrite app_assoc in E |- *.
  assert (F : firstn (length (a ++ s)) (p ++ q) = a ++ s) by (rewrite E, firstn_app, firstn_all, Nat.sub_diag; cbn [firstn]; apply app_nil_r).
  rewrite firstn_app in F. replace (length (a ++ s) - length p)%nat with 0%nat in F by lia. cbn [firstn] in F. rewrite app_nil_r in F.
  rewrite <- F at 1. symmetry. apply firstn_skipn.
Qed.
Lemma bytes_at_front c i s t : bytes_at c i (s ++ t) -> bytes_at c i s.
Proof. intros (a & b & -> & L). exists a, (t ++ b). rewrite <- !app_assoc. auto. Qed.
Lemma packed_prefix p q : forall l at_ lo hi, packed (p ++ q) at_ l lo hi -> at_ + 8 * N.of_nat (length l) <= len p ->
  (forall i n off, (i < length l)%nat -> table_entry (p ++ q) at_ i n off -> n = 0 \/ off + n <= len p) ->
  table_at LE p at_ l.
Proof.
  induction l as [|s r IH]; intros at_ lo hi H L T; cbn [packed table_at length] in *; [exact I|].
  destruct H as (A & Bq & C & D). split; [apply (word_at_cut _ _ _ _ _ A); lia|]. split.
  - exists lo. split; [apply (word_at_cut _ _ _ _ _ Bq); lia|].
    destruct (T 0%nat (len s) lo) as [E|E]; [lia|split; [replace (at_ + 8 * N.of_nat 0) with at_ by lia; exact A|
      replace (at_ + 8 * N.of_nat 0 + 4) with (at_ + 4) by lia; exact Bq]| |].
    + left. destruct s; [reflexivity|unfold len in E; cbn [length] in E; lia].
    + right. apply (bytes_at_prefix p q); [exact (bytes_at_front _ _ _ _ C)|exact E].
  - apply (IH _ _ _ D); [lia|]. intros i n off Hi [E1 E2]. apply (T (S i) n off); [lia|].
    unfold table_entry. replace (at_ + 8 * N.of_nat (S i)) with (at_ + 8 + 8 * N.of_nat i) by lia. auto.
Qed.
Lemma word_at_inside bo c i v : word_at bo c i v -> i + 4 <= len c.
Proof.
  intros (b0 & b1 & b2 & b3 & _ & _ & _ & H & _). unfold byte_at in H.
  destruct (nth_error c (N.to_nat (i + 3))) eqn:E; [|discriminate].
  assert (N.to_nat (i + 3) < length c)%nat by (apply nth_error_Some; congruence). unfold len. lia.
Qed.
Lemma bytes_at_inside c i s : bytes_at c i s -> i + len s <= len c.
Proof. intros (a & b & -> & L). unfold len. rewrite !app_length. lia. Qed.
Theorem prefix_accepted l p q : mo_bytes l = p ++ q -> len (mo_bytes l) < 2 ^ 32 ->
  let n := N.of_nat (length l) in
  ((exists f, read_mo p = MoOk f) <-> 28 <= len p /\ (n = 0 \/ 75 + 16 * n <= len p)
     /\ forall i k off, (i < 2 * length l)%nat -> table_entry (mo_bytes l) 75 i k off -> k = 0 \/ off + k <= len p).
Proof.
  intros E L n. destruct (mo_header_words l L) as (W0 & W4 & W8 & W12 & W16 & _). cbn zeta in *. fold n in W8, W16.
  pose proof (mo_packed l L) as P. cbn zeta in P. fold n in P.
  pose proof (mo_stores l L) as S. split.
  - intros (f & R). apply read_mo_spec in R as (bo & ids & strs & St & _).
    destruct St as (A & _ & (m & o & t & C1 & C2 & C3 & C4 & C5 & C6 & C7) & D).
    assert (A' : word_at bo (mo_bytes l) 0 0x950412de) by (rewrite E; apply word_at_app, A).
    pose proof (order_fun _ _ _ A' W0). subst bo.
    assert (En : m = n) by (apply (word_at_fun LE (mo_bytes l) 8); [rewrite E; apply word_at_app, C1|exact W8]).
    assert (Eo : o = 75) by (apply (word_at_fun LE (mo_bytes l) 12); [rewrite E; apply word_at_app, C2|exact W12]).
    assert (Et : t = 75 + 8 * n) by (apply (word_at_fun LE (mo_bytes l) 16); [rewrite E; apply word_at_app, C3|exact W16]).
    rewrite Eo in C6. rewrite Et in C7.
    assert (T : table_at LE p 75 (ids ++ strs)).
    { apply table_app. split; [exact C6|]. replace (N.of_nat (length ids)) with n by congruence. exact C7. }
    assert (Li : length (ids ++ strs) = (2 * length l)%nat) by (rewrite app_length; lia).
    split; [unfold len; lia|]. split.
    + destruct (length l) as [|m'] eqn:El; [left; unfold n; lia|]. right.
      destruct (nth_error (ids ++ strs) (2 * length l - 1)) as [s|] eqn:Es; [|apply nth_error_None in Es; lia].
      destruct (table_nth _ _ _ _ _ _ T Es) as (off & _ & Q & _). apply word_at_inside in Q. lia.
    + intros i k off Hi [T1 T2].
      destruct (nth_error (ids ++ strs) i) as [s|] eqn:Es; [|apply nth_error_None in Es; lia].
      destruct (table_nth _ _ _ _ _ _ T Es) as (off' & Q1 & Q2 & Q3).
      apply (word_at_app _ _ q) in Q1, Q2. rewrite <- E in Q1, Q2.
      pose proof (word_at_fun _ _ _ _ _ T1 Q1) as ->. pose proof (word_at_fun _ _ _ _ _ T2 Q2) as ->.
      destruct Q3 as [->|Q3]; [left; reflexivity|right; apply bytes_at_inside, Q3].
  - intros (H1 & H2 & H3). exists (catalog_of (map mo_id l) (map mo_str l)). apply read_mo_spec.
    exists LE, (map mo_id l), (map mo_str l). split; [|reflexivity].
    destruct S as (_ & (ma & mi & V1 & V2 & V3 & V4) & _). rewrite E in W0, W8, W12, W16, V1, V2, P, H3.
    split; [apply (word_at_cut _ _ _ _ _ W0); lia|].
    split; [exists ma, mi; repeat split; auto; [apply (half_at_cut _ _ _ _ _ V1)|apply (half_at_cut _ _ _ _ _ V2)]; lia|].
    split; [|unfold len in *; lia].
    exists n, 75, (75 + 8 * n). rewrite !map_length.
    split; [apply (word_at_cut _ _ _ _ _ W8); lia|]. split; [apply (word_at_cut _ _ _ _ _ W12); lia|].
    split; [apply (word_at_cut _ _ _ _ _ W16); lia|]. split; [reflexivity|]. split; [reflexivity|].
    assert (T : table_at LE p 75 (map mo_id l ++ map mo_str l)).
    { destruct l as [|e l]; [exact I|]. apply (packed_prefix p q _ _ _ _ P); rewrite app_length, !map_length.
      - unfold n in H2. cbn [length] in *. lia.
      - intros i k off Hi. apply H3. lia. }
    apply table_app in T as [T1 T2]. rewrite map_length in T2. auto.
Qed.
