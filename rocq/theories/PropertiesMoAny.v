(** What is read back of any catalog saved as .mo file. *)
From Coq Require Import Permutation NArith.
From Verif Require Import GoStr GoMap GoMapFacts FileModel FileFacts PoModel PoSpec PoCatalogFacts MoModel MoSpec MoFacts
  MoCatalogFacts MoAnySpec MoAnyFacts.

(** ** C29: every catalog below 4 GB that is saved is read back without error:
    of each entry what the strings mean by which it is stored, and of entries
    with the same key then the last in the file. *)
Theorem C29_any_partial : forall f out, saves_mo f out -> (N.of_nat (length out) < 2 ^ 32)%N ->
  exists l l' f', sorted_entries f l /\ Forall2 comes_back l l' /\ read_mo out = MoOk f' /\ filed f'
    /\ forall k, last_of l' k (mget k (f_entries f')).
Proof. exact mo_any. Qed.
Print Assumptions C29_any_partial.
(** So everything but the comments comes back exactly when a .mo file can
    express every entry. *)
Theorem C29_exactly_partial : forall f out, filed f -> saves_mo f out -> (N.of_nat (length out) < 2 ^ 32)%N ->
  ((exists f', read_mo out = MoOk f' /\ forall k, mget k (f_entries f') = option_map strip (mget k (f_entries f)))
   <-> forall e, In e (vals (f_entries f)) -> mo_ok e).
Proof. exact mo_round_trip_iff. Qed.
Print Assumptions C29_exactly_partial.
Definition mk c k i p i2 s n : entry :=
  {| e_cmts := c; e_ctxt := k; e_id := i; e_plural := p; e_id2 := i2; e_str := s; e_strn := n |}.
(** two entries of which the second comes back under the key of the first, and
    one that loses its singular translation *)
Definition odd1 : entry := mk [B "# c"] (B "a") (B "b") false [] (B "x") [].
Definition odd2 : entry := mk [] [] (B "a" ++ EOT :: B "b") false [] (B "y") [].
Definition odd3 : entry := mk [] [] (B "day") true (B "days") (B "Tag") [B "Tag"; B "Tage"].
Definition odd_f : file := fold_left add_entry [odd1; odd2; odd3] new_file.
Example C29_any_case : filed odd_f /\ (exists out, saves_mo odd_f out /\ (N.of_nat (length out) < 2 ^ 32)%N)
  /\ comes_back odd1 (strip odd1) /\ comes_back odd2 (mk [] (B "a") (B "b") false [] (B "y") [])
  /\ comes_back odd3 (mk [] [] (B "day") true (B "days") [] [B "Tag"; B "Tage"])
  /\ mo_ok odd1 /\ ~ mo_ok odd2 /\ ~ mo_ok odd3.
Proof.
  split; [apply built_filed; eexists; reflexivity|]. split.
  { destruct (saves_mo_exist odd_f) as [out Sv]. exists out. split; [exact Sv|]. destruct Sv as (l & [P _] & ->).
    change (len (mo_bytes l) < 2 ^ 32)%N. rewrite mo_bytes_len. unfold body. rewrite len_app.
    assert (Q : forall g, len (write_strings (map g l)) = len (write_strings (map g (vals (f_entries odd_f))))).
    { intros g. pose proof (Permutation_map g P) as P'. unfold len. f_equal. apply Permutation_length.
      unfold write_strings. rewrite <- !flat_map_concat_map. apply Permutation_flat_map, P'. }
    rewrite !Q, (Permutation_length P). reflexivity. }
  split; [apply comes_back_iff; vm_compute; reflexivity|]. split; [apply comes_back_iff; vm_compute; reflexivity|].
  split; [apply comes_back_iff; vm_compute; reflexivity|]. split.
  { apply image_strip. vm_compute. reflexivity. }
  split; intros H; apply entry_back in H; vm_compute in H; discriminate.
Qed.
