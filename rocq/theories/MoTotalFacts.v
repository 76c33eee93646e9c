(** Facts about the buffers asked for by an accepted and by a written .mo file. *)
From Coq Require Import Lia ZifyBool ZifyNat ZifyN.
From Verif Require Import GoStr GoStrFacts GoFmt GoMap FileModel PoModel MoModel MoSpec MoFacts ErrModel MoErrModel MoErrSpec MoErrFacts MoMemFacts.
Local Open Scope N_scope.

(** the lengths of the strings of a .mo file in the order they are read *)
Definition lengths (ids strs : list bytes) : list N :=
  flat_map (fun p => [size (fst p); size (snd p)]) (combine ids strs).
Lemma read_str_len c lo s : read_str c lo = Some s -> fst lo = size s.
Proof. destruct lo as [l o]. intros H. apply read_str_spec in H as [-> _]. reflexivity. Qed.
Lemma lengths_total : forall ids strs, length ids = length strs ->
  total (lengths ids strs) = total (map size ids) + total (map size strs).
Proof.
  induction ids as [|a ids IH]; intros [|b strs] L; try discriminate; [reflexivity|].
  cbn [length] in L. unfold lengths in *. cbn [combine flat_map app map total fold_right].
  fold (total (flat_map (fun p => [size (fst p); size (snd p)]) (combine ids strs))) (total (map size ids)) (total (map size strs)).
  rewrite (IH strs) by lia. cbn [fst snd]. lia.
Qed.
Lemma lengths_length : forall ids strs, length ids = length strs -> length (lengths ids strs) = (length ids + length strs)%nat.
Proof.
  induction ids as [|a ids IH]; intros [|b strs] L; try discriminate; [reflexivity|]. cbn [length] in L.
  unfold lengths in *. cbn [combine flat_map app length]. rewrite (IH strs) by lia. lia.
Qed.
Lemma lengths_nth : forall ids strs i id str, nth_error ids i = Some id -> nth_error strs i = Some str ->
  nth_error (lengths ids strs) (2 * i) = Some (size id) /\ nth_error (lengths ids strs) (2 * i + 1) = Some (size str).
Proof.
  induction ids as [|a ids IH]; intros [|b strs] [|i] id str H H'; try discriminate.
  - injection H as ->. injection H' as ->. split; reflexivity.
  - destruct (IH strs i id str H H') as [E1 E2]. unfold lengths. cbn [combine flat_map app].
    replace (2 * S i)%nat with (S (S (2 * i))) by lia. replace (S (S (2 * i)) + 1)%nat with (S (S (2 * i + 1))) by lia. auto.
Qed.
Lemma packed_total c : forall l p lo hi, packed c p l lo hi -> lo + total (map size l) + N.of_nat (length l) = hi.
Proof.
  induction l as [|s l IH]; intros p lo hi H; cbn [packed] in H; [cbn [map total fold_right length]; lia|].
  destruct H as (_ & _ & _ & H). apply IH in H. cbn [map total fold_right length]. fold (total (map size l)).
  change (size s) with (len s). lia.
Qed.

Section MT.
Context {A : Type}.
Variable print : spec -> arg (val A) -> bytes.
Variable as_int : arg (val A) -> option Z.
Variable extra : list (arg (val A)) -> bytes.
Variables err_read_mo eof unexpected_eof : err.
Variable next : nat.
Notation read_strings_e := (read_strings_e print as_int extra err_read_mo eof unexpected_eof next).
Notation read_mo_e := (read_mo_e print as_int extra err_read_mo eof unexpected_eof next).

Lemma strings_lengths c : forall ps ids, Forall2 (fun lo s => read_str c lo = Some s) ps ids ->
  forall ps' strs i f, Forall2 (fun lo s => read_str c lo = Some s) ps' strs -> length ps = length ps' ->
  exists g, read_strings_e c i ps ps' f = (lengths ids strs, MOk g).
Proof.
  induction 1 as [|a s ps ids E F IH]; intros ps' strs i f G L.
  - destruct G; [eexists; reflexivity|discriminate].
  - destruct G as [|b s' ps' strs E' G]; [discriminate|]. cbn [length] in L.
    cbn [MoErrModel.read_strings_e]. rewrite E, E'.
    destruct (IH ps' strs (i + 1) (add_entry f (mo_entry s s')) G ltac:(lia)) as [g ->].
    exists g. unfold lengths. cbn [combine flat_map fst snd app].
    rewrite (read_str_len _ _ _ E), (read_str_len _ _ _ E'). reflexivity.
Qed.
Lemma stores_lengths bo c ids strs : stores bo c ids strs -> exists g, read_mo_e c = (lengths ids strs, MOk g).
Proof.
  intros (M & V & (n & o & t & W1 & W2 & W3 & N1 & N2 & T1 & T2) & L).
  assert (H : head_ok bo c n o t).
  { split; [exact M|]. split; [unfold size; lia|]. split; [|auto].
    destruct V as (ma & mi & A1 & A2 & A3 & A4). exists ma, mi. repeat split; auto; lia. }
  rewrite (head_reads _ _ _ _ _ _ _ _ _ _ _ _ H).
  apply table_pairs in T1 as (ps & P1 & L1 & F1), T2 as (ps' & P2 & L2 & F2).
  replace (read_table_e bo n 0 (drop o c)) with (inl (B := N * bytes) ps)
    by (symmetry; apply table_e_some, read_table_spec; split; [lia|exact P1]).
  replace (read_table_e bo n 0 (drop t c)) with (inl (B := N * bytes) ps')
    by (symmetry; apply table_e_some, read_table_spec; split; [lia|exact P2]).
  apply strings_lengths; auto. lia.
Qed.
Lemma accepted_stores c q f : read_mo_e c = (q, MOk f) -> exists bo ids strs, stores bo c ids strs /\ q = lengths ids strs.
Proof.
  intros E. assert (R : read_mo c = MoOk f).
  { pose proof (read_mo_bare print as_int extra err_read_mo eof unexpected_eof next c) as R. rewrite E in R. symmetry. exact R. }
  apply read_mo_spec in R as (bo & ids & strs & St & _). exists bo, ids, strs. split; [exact St|].
  destruct (stores_lengths _ _ _ _ St) as [g E']. rewrite E in E'. injection E' as -> _. reflexivity.
Qed.
End MT.
