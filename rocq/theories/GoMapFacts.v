From Verif Require Import GoStr GoStrFacts GoMap.
From Coq Require Import Permutation.

Section Facts.
Context {V : Type}.
Implicit Types (m : gmap V) (k : bytes) (v : V).

Lemma mget_in k m v : mget k m = Some v -> In (k, v) m.
Proof.
  induction m as [|[k' v'] r IH]; cbn; [discriminate|].
  destruct (beq_spec k k') as [->|N]; [intros [= ->]; left; reflexivity|intros H; right; apply IH, H].
Qed.
Lemma mget_none k m : mget k m = None <-> ~ In k (keys m).
Proof.
  induction m as [|[k' v'] r IH]; cbn; [tauto|].
  destruct (beq_spec k k') as [->|N].
  - split; [discriminate|intros H; exfalso; apply H; left; reflexivity].
  - rewrite IH. split; [intros H [E|H']; [congruence|tauto]|tauto].
Qed.
Lemma mget_some_key k m v : mget k m = Some v -> In k (keys m).
Proof. intros H. apply mget_in in H. apply (in_map fst) in H. exact H. Qed.
Lemma in_mget k v m : NoDup (keys m) -> In (k, v) m -> mget k m = Some v.
Proof.
  induction m as [|[k' v'] r IH]; cbn; [intros _ []|]. intros N H. inversion N as [|? ? N1 N2]; subst.
  destruct H as [[= -> ->]|H]; [rewrite beq_refl; reflexivity|].
  destruct (beq_spec k k') as [->|D]; [|apply IH; assumption].
  exfalso. apply N1. apply (in_map fst) in H. exact H.
Qed.
Lemma mget_put_same k v m : mget k (mput k v m) = Some v.
Proof.
  induction m as [|[k' v'] r IH]; cbn; [rewrite beq_refl; reflexivity|].
  destruct (beq_spec k k') as [->|N]; cbn; [rewrite beq_refl; reflexivity|].
  rewrite (proj2 (beq_neq k k') N). exact IH.
Qed.
Lemma mget_put_other k k' v m : k <> k' -> mget k (mput k' v m) = mget k m.
Proof.
  intros N. induction m as [|[k0 v0] r IH]; cbn; [rewrite (proj2 (beq_neq k k') N); reflexivity|].
  destruct (beq_spec k' k0) as [->|N']; cbn.
  - rewrite (proj2 (beq_neq k k0) N). reflexivity.
  - destruct (beq k k0); [reflexivity|exact IH].
Qed.
Lemma mget_put k k' v m : mget k (mput k' v m) = if beq k k' then Some v else mget k m.
Proof.
  destruct (beq_spec k k') as [->|N]; [apply mget_put_same|apply mget_put_other, N].
Qed.
Lemma keys_put k v m : keys (mput k v m) = keys m \/ (~ In k (keys m) /\ keys (mput k v m) = keys m ++ [k]).
Proof.
  induction m as [|[k' v'] r IH]; cbn; [right; split; [tauto|reflexivity]|].
  destruct (beq_spec k k') as [->|N]; cbn; [left; reflexivity|].
  destruct IH as [E|[H E]]; [left; f_equal; exact E|right]. split; [|f_equal; exact E].
  intros [E'|H']; [congruence|tauto].
Qed.
Lemma in_keys_put k k' v m : In k (keys (mput k' v m)) <-> k = k' \/ In k (keys m).
Proof.
  split.
  - intros H. destruct (keys_put k' v m) as [E|[_ E]]; rewrite E in H; [tauto|].
    apply in_app_or in H as [H|[->|[]]]; tauto.
  - intros H. destruct (bytes_dec k k') as [->|N].
    + eapply mget_some_key, mget_put_same.
    + destruct H as [|H]; [congruence|].
      destruct (mget k m) as [u|] eqn:E; [|apply mget_none in E; contradiction].
      eapply mget_some_key. rewrite mget_put_other by exact N. exact E.
Qed.
Lemma nodup_put k v m : NoDup (keys m) -> NoDup (keys (mput k v m)).
Proof.
  intros H. destruct (keys_put k v m) as [->|[N ->]]; [exact H|].
  apply (Permutation_NoDup (l := k :: keys m)); [apply Permutation_cons_append|constructor; assumption].
Qed.
Lemma in_mput x k v m : In x (mput k v m) -> x = (k, v) \/ In x m.
Proof.
  induction m as [|[k' v'] r IH]; cbn; [intros [H|[]]; auto|].
  destruct (beq_spec k k') as [->|N]; cbn; [intros [<-|H]; auto|].
  intros [<-|H]; auto. destruct (IH H); auto.
Qed.
Lemma mdel_incl k m x : In x (mdel k m) -> In x m.
Proof.
  induction m as [|[k' v'] r IH]; cbn; [tauto|]. destruct (beq k k'); cbn; [auto|].
  intros [H|H]; auto.
Qed.
Lemma keys_del k m : NoDup (keys m) -> forall x, In x (keys (mdel k m)) <-> In x (keys m) /\ x <> k.
Proof.
  induction m as [|[k' v'] r IH]; cbn; [tauto|]. intros N x. inversion N as [|? ? N1 N2]; subst.
  destruct (beq_spec k k') as [->|D]; cbn.
  - split; [intros H; split; [tauto|intros ->; contradiction]|intros [[E|H] D]; [congruence|exact H]].
  - rewrite (IH N2). split; [intros [<-|H]; [split; [auto|congruence]|tauto]|tauto].
Qed.
Lemma nodup_del k m : NoDup (keys m) -> NoDup (keys (mdel k m)).
Proof.
  induction m as [|[k' v'] r IH]; cbn; [auto|]. intros N. inversion N as [|? ? N1 N2]; subst.
  destruct (beq_spec k k') as [->|D]; cbn; [exact N2|]. constructor; [|apply IH, N2].
  intros H. apply N1. apply in_map_iff in H as ([a b] & <- & H). apply mdel_incl in H.
  apply (in_map fst) in H. exact H.
Qed.
Lemma mget_del_same k m : NoDup (keys m) -> mget k (mdel k m) = None.
Proof. intros N. apply mget_none. rewrite keys_del by exact N. tauto. Qed.
Lemma mget_del_other k k' m : k <> k' -> mget k (mdel k' m) = mget k m.
Proof.
  intros N. induction m as [|[k0 v0] r IH]; cbn; [reflexivity|].
  destruct (beq_spec k' k0) as [->|D]; cbn.
  - rewrite (proj2 (beq_neq k k0) N). reflexivity.
  - destruct (beq k k0); [reflexivity|exact IH].
Qed.
Lemma mput_same_id k v m : mget k m = Some v -> mput k v m = m.
Proof.
  induction m as [|[k' v'] r IH]; cbn; [discriminate|].
  destruct (beq_spec k k') as [->|N]; [intros [= ->]; reflexivity|]. intros H. f_equal. apply IH, H.
Qed.
End Facts.
