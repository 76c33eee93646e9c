(** Facts about [trim_space] on texts delimited by visible ASCII bytes. *)
From Coq Require Import Lia ZifyBool ZifyNat ZifyN.
From Verif Require Import GoStr GoStrFacts.
Local Open Scope N_scope.

(** an ASCII byte that is not white space *)
Definition visible (c : ascii) : Prop := code c < 0x80 /\ is_space (code c) = false.

Lemma space_len_visible c t : visible c -> space_len (c :: t) = 0%nat.
Proof.
  intros [H1 H2]. unfold space_len. rewrite decode_rune_ascii by exact H1. rewrite H2. reflexivity.
Qed.
Lemma trim_left_visible c t : visible c -> trim_left (c :: t) = c :: t.
Proof. intros H. unfold trim_left. cbn [length trim_left_fuel]. rewrite space_len_visible by exact H. reflexivity. Qed.
Lemma rspace_len_visible c t : visible c -> rspace_len (c :: t) = 0%nat.
Proof.
  intros [H1 H2]. unfold rspace_len. destruct (N.ltb_spec (code c) 128); [|lia]. rewrite H2. reflexivity.
Qed.
Lemma rtrim_visible c t n : visible c -> rtrim_fuel n (c :: t) = c :: t.
Proof. intros H. destruct n; [reflexivity|]. cbn [rtrim_fuel]. rewrite rspace_len_visible by exact H. reflexivity. Qed.
Lemma trim_right_visible c t : visible c -> trim_right (t ++ [c]) = t ++ [c].
Proof.
  intros H. unfold trim_right. rewrite rev_app_distr. cbn [rev app]. rewrite rtrim_visible by exact H.
  cbn [rev]. rewrite rev_involutive. reflexivity.
Qed.
Lemma trim_space_visible c t d : visible c -> visible d -> trim_space (c :: t ++ [d]) = c :: t ++ [d].
Proof.
  intros Hc Hd. unfold trim_space. rewrite trim_left_visible by exact Hc.
  apply (trim_right_visible d (c :: t)). exact Hd.
Qed.
Lemma rspace_len_bound c t : visible c -> (rspace_len (t ++ [c]) <= length t)%nat.
Proof.
  intros [H1 H2]. destruct t as [|x t].
  - cbn [app]. rewrite rspace_len_visible by (split; assumption). cbn; lia.
  - cbn [app]. unfold rspace_len. destruct (code x <? 128); [destruct (is_space (code x)); cbn [length]; lia|].
    destruct t as [|y t]; cbn [app].
    + rewrite decode_rune_ascii by exact H1. cbn [Nat.eqb andb]. cbn; lia.
    + destruct (decode_rune [y; x]) as [r2 w2]. destruct (_ && _); [cbn [length]; lia|].
      destruct t as [|z t]; cbn [app].
      * rewrite decode_rune_ascii by exact H1. cbn [Nat.eqb andb]. cbn; lia.
      * destruct (decode_rune [z; y; x]) as [r3 w3]. destruct (_ && _); cbn [length]; lia.
Qed.
Lemma rtrim_keeps c : visible c -> forall n t, exists u, rtrim_fuel n (t ++ [c]) = u ++ [c].
Proof.
  intros H. induction n as [|n IH]; intros t; [exists t; reflexivity|]. cbn [rtrim_fuel].
  pose proof (rspace_len_bound c t H) as Hb. destruct (rspace_len (t ++ [c])) as [|w]; [exists t; reflexivity|].
  rewrite skipn_app. replace (S w - length t)%nat with 0%nat by lia. cbn [skipn]. apply IH.
Qed.
Lemma trim_space_nonempty c t : visible c -> exists u, trim_space (c :: t) = c :: u.
Proof.
  intros H. unfold trim_space. rewrite trim_left_visible by exact H. unfold trim_right. cbn [rev].
  destruct (rtrim_keeps c H (length (c :: t)) (rev t)) as [u ->]. rewrite rev_app_distr. exists (rev u). reflexivity.
Qed.
Lemma visible_dq : visible DQ. Proof. split; [vm_compute|]; reflexivity. Qed.
