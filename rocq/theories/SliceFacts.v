From Verif Require Import GoStr GoFmt SliceModel.
From Coq Require Import Lia.

Lemma update_length {V} (l : list V) i v : (i < length l)%nat -> length (update l i v) = length l.
Proof. intros H. unfold update. rewrite app_length, firstn_length. cbn [length]. rewrite skipn_length. lia. Qed.
Lemma nth_update_same {V} (l : list V) i v : (i < length l)%nat -> nth_error (update l i v) i = Some v.
Proof.
  intros H. unfold update. rewrite nth_error_app2; rewrite firstn_length; [|lia].
  replace (i - min i (length l))%nat with O by lia. reflexivity.
Qed.
Lemma nth_update_other {V} (l : list V) i j v : (i < length l)%nat -> j <> i -> nth_error (update l i v) j = nth_error l j.
Proof.
  intros H N. unfold update.
  destruct (Nat.lt_ge_cases j i).
  - rewrite nth_error_app1 by (rewrite firstn_length; lia).
    rewrite <- (firstn_skipn i l) at 2. rewrite nth_error_app1 by (rewrite firstn_length; lia). reflexivity.
  - rewrite nth_error_app2; rewrite firstn_length; [|lia]. replace (j - min i (length l))%nat with (S (j - S i)) by lia.
    cbn [nth_error]. rewrite <- (firstn_skipn (S i) l) at 2. rewrite nth_error_app2; rewrite firstn_length; [|lia].
    f_equal. lia.
Qed.
Lemma firstn_update {V} (l : list V) i k v : (i < length l)%nat -> (k <= i)%nat -> firstn k (update l i v) = firstn k l.
Proof.
  intros H K. unfold update. rewrite firstn_app, firstn_length, firstn_firstn.
  replace (k - min i (length l))%nat with O by lia. rewrite firstn_O, app_nil_r. f_equal. lia.
Qed.
Lemma skipn_skipn' {V} (a b : nat) (l : list V) : skipn a (skipn b l) = skipn (a + b) l.
Proof.
  revert b. induction l as [|x l IH]; intros b; [rewrite !skipn_nil; reflexivity|].
  destruct b as [|b]; [rewrite Nat.add_0_r; reflexivity|]. rewrite Nat.add_succ_r. cbn [skipn]. apply IH.
Qed.
Lemma skipn_update {V} (l : list V) i k v : (i < length l)%nat -> (k <= i)%nat ->
  skipn k (update l i v) = update (skipn k l) (i - k) v.
Proof.
  intros H K. unfold update. rewrite skipn_app, firstn_length. replace (k - min i (length l))%nat with O by lia.
  rewrite skipn_O, skipn_firstn_comm. f_equal. f_equal. rewrite skipn_skipn'. f_equal. lia.
Qed.
Section F.
Context {V : Type}.
Implicit Types (h : heap V) (s : slice).
Lemma elems_length h s : slice_ok h s -> length (elems h s) = sl_len s.
Proof.
  intros (H1 & a & E & H2). unfold elems. rewrite E, firstn_length, skipn_length. lia.
Qed.
Lemma heap_lt h s a : nth_error h (sl_arr s) = Some a -> (sl_arr s < length h)%nat.
Proof. intros E. apply nth_error_Some. congruence. Qed.
(** what append does *)
Lemma append1_spec room h s v : slice_ok h s ->
  let (h', s') := append1 room h s v in
  elems h' s' = elems h s ++ [v]
  /\ elems h' s = elems h s
  /\ (forall k, k <> sl_arr s -> (k < length h)%nat -> nth_error h' k = nth_error h k)
  /\ (forall a i, nth_error h (sl_arr s) = Some a ->
        exists a', nth_error h' (sl_arr s) = Some a' /\ length a' = length a
          /\ (i <> sl_off s + sl_len s \/ sl_len s = sl_cap s -> nth_error a' i = nth_error a i)%nat)
  /\ (sl_len s < sl_cap s -> exists a', nth_error h' (sl_arr s) = Some a' /\ nth_error a' (sl_off s + sl_len s) = Some v)%nat.
Proof.
  intros (H1 & a & E & H2). unfold append1. pose proof (heap_lt h s a E) as Lh.
  destruct (Nat.ltb_spec (sl_len s) (sl_cap s)) as [L|L].
  - rewrite E. assert (La : (sl_off s + sl_len s < length a)%nat) by lia.
    assert (Eh : nth_error (update h (sl_arr s) (update a (sl_off s + sl_len s) v)) (sl_arr s) = Some (update a (sl_off s + sl_len s) v))
      by (apply nth_update_same, Lh).
    split; [|split; [|split; [|split]]].
    + unfold elems. cbn [sl_arr sl_off sl_len]. rewrite Eh, E, skipn_update by lia.
      replace (sl_off s + sl_len s - sl_off s)%nat with (sl_len s) by lia.
      unfold update. rewrite firstn_app, firstn_firstn, firstn_length, skipn_length.
      replace (S (sl_len s) - min (sl_len s) (length a - sl_off s))%nat with 1%nat by lia.
      replace (min (S (sl_len s)) (sl_len s)) with (sl_len s) by lia. reflexivity.
    + unfold elems. rewrite Eh, E, skipn_update by lia. apply firstn_update; [rewrite skipn_length; lia|lia].
    + intros k N Hk. apply nth_update_other; assumption.
    + intros a0 i E0. injection E0 as <-. eexists. split; [exact Eh|]. split; [apply update_length, La|].
      intros [N|N]; [|lia]. apply nth_update_other; assumption.
    + intros _. eexists. split; [exact Eh|]. apply nth_update_same, La.
  - assert (Eh : forall x k, (k < length h)%nat -> nth_error (h ++ [x]) k = nth_error h k) by (intros; apply nth_error_app1; assumption).
    split; [|split; [|split; [|split]]].
    + unfold elems at 1. cbn [sl_arr sl_off sl_len]. rewrite nth_error_app2 by lia. rewrite Nat.sub_diag. cbn [nth_error skipn].
      rewrite firstn_app. rewrite elems_length by (split; [exact H1|exists a; auto]).
      rewrite firstn_all2 by (rewrite elems_length; [lia|split; [exact H1|exists a; auto]]).
      replace (S (sl_len s) - sl_len s)%nat with 1%nat by lia. reflexivity.
    + unfold elems at 1. rewrite Eh by exact Lh. reflexivity.
    + intros k _ Hk. apply Eh, Hk.
    + intros a0 i E0. exists a0. rewrite Eh by exact Lh. auto.
    + lia.
Qed.
End F.
