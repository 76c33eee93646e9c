(** Saving into a destination that may fail. *)
From Coq Require Import Lia ZifyBool ZifyNat.
From Verif Require Import GoStr GoStrFacts FileModel PoModel MoModel XtModel XtSpec XtRunFacts WriteModel WriteSpec.
Local Open Scope Z_scope.
Lemma write_to_honest written b r taken : honest written -> write_to written b = (r, taken) ->
  r <> SPanic /\ (exists rest, b = taken ++ rest) /\ (r = SNil -> taken = b)
  /\ (r = SErr -> exists n, written b = (n, true)).
Proof.
  intros H. destruct b as [|c b]; cbn [write_to].
  - intros E. injection E as <- <-. split; [discriminate|]. split; [exists []; reflexivity|]. split; [reflexivity|discriminate].
  - set (s := c :: b) in *. clearbody s. clear c b. destruct (written s) as [n e] eqn:W. destruct (H s n e W) as [B E].
    destruct (Z.gtb_spec n (Z.of_nat (length s))) as [G|G]; [lia|]. intros Q. apply pair_equal_spec in Q as [<- <-].
    split; [destruct e; [discriminate|]; destruct (n =? _); discriminate|].
    split; [exists (skipn (Z.to_nat n) s); symmetry; apply firstn_skipn|].
    destruct e.
    + split; [discriminate|]. intros _. exists n. reflexivity.
    + destruct (Z.eqb_spec n (Z.of_nat (length s))) as [->|N]; [|specialize (E ltac:(lia)); discriminate].
      split; [intros _; rewrite Nat2Z.id; apply firstn_all|discriminate].
Qed.
Lemma write_to_faultless written b : faultless written -> write_to written b = (SNil, b).
Proof.
  intros H. destruct b as [|c b]; [reflexivity|]. unfold write_to. rewrite H.
  destruct (Z.gtb_spec (Z.of_nat (length (c :: b))) (Z.of_nat (length (c :: b)))); [lia|].
  rewrite Z.eqb_refl, Nat2Z.id, firstn_all. reflexivity.
Qed.
