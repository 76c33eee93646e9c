(** Property C79, continued: what accepted and what written .mo files ask for. *)
From Coq Require Import Permutation Lia ZifyBool ZifyNat ZifyN.
From Verif Require Import GoStr GoStrFacts GoFmt GoMap FileModel PoModel MoModel MoSpec MoFacts MoCatalogFacts ErrModel MoErrModel MoErrSpec MoErrFacts MoMemFacts MoTotalFacts PropertiesMoErr.
Local Open Scope N_scope.

(** ** C79: the memory of reading a .mo file *)
(** An accepted file asks for one buffer for every string that its tables store,
    of exactly the length of this string: the total is their total length.  So
    more than the size of the file is asked for only if strings overlap. *)
Theorem C79_exactly : forall A (print : spec -> arg (val A) -> bytes) as_int extra err_read_mo eof unexpected_eof next content q f,
  read_mo_e print as_int extra err_read_mo eof unexpected_eof next content = (q, MOk f) ->
  exists bo ids strs, stores bo content ids strs
  /\ length q = (length ids + length strs)%nat
  /\ (forall i id str, nth_error ids i = Some id -> nth_error strs i = Some str ->
        nth_error q (2 * i) = Some (size id) /\ nth_error q (2 * i + 1) = Some (size str))
  /\ total q = total (map size ids) + total (map size strs).
Proof.
  intros A print as_int extra err_read_mo eof unexpected_eof next content q f E.
  apply accepted_stores in E as (bo & ids & strs & St & ->). exists bo, ids, strs. split; [exact St|].
  assert (L : length ids = length strs) by (destruct St as (_ & _ & (n & o & t & _ & _ & _ & N1 & N2 & _) & _); lia).
  split; [apply lengths_length, L|]. split; [intros i id str; apply lengths_nth|apply lengths_total, L].
Qed.
Print Assumptions C79_exactly.
(** For the files SaveAsMo writes this is less than the size of the file, by 75
    bytes for the head and 18 for every message. *)
Theorem C79_saved : forall A (print : spec -> arg (val A) -> bytes) as_int extra err_read_mo eof unexpected_eof next f out,
  saves_mo f out -> size out < 2 ^ 32 ->
  exists q g, read_mo_e print as_int extra err_read_mo eof unexpected_eof next out = (q, MOk g)
  /\ total q + 75 + 18 * N.of_nat (length (keys (f_entries f))) = size out.
Proof.
  intros A print as_int extra err_read_mo eof unexpected_eof next f out (l & S & ->) H.
  destruct (stores_lengths print as_int extra err_read_mo eof unexpected_eof next _ _ _ _ (mo_stores l H)) as [g E].
  eexists _, g. split; [exact E|]. rewrite lengths_total by (rewrite !map_length; reflexivity).
  pose proof (packed_total _ _ _ _ _ (mo_packed l H)) as P. rewrite map_app, total_app, app_length, !map_length in P.
  change (size (mo_bytes l)) with (len (mo_bytes l)). destruct S as [S _]. apply Permutation_length in S. unfold vals in S. rewrite map_length in S.
  unfold keys. rewrite map_length. lia.
Qed.
Print Assumptions C79_saved.
(* a message with a context and two forms *)
Definition c79_entry : entry := {| e_cmts := []; e_ctxt := B "c"; e_id := B "one"; e_plural := true; e_id2 := B "two"; e_str := []; e_strn := [B "eins"; B "zwei"] |}.
Definition c79_file : file := add_entry new_file c79_entry.
Example C79_saved_case : exists out, saves_mo c79_file out /\ size out = 111
  /\ (exists f, c78_read out = ([9; 9], MOk f)) /\ 18 + 75 + 18 = 111.
Proof.
  exists (mo_bytes [c79_entry]). split.
  - exists [c79_entry]. split; [split; [apply Permutation_refl|split; [intros x []|exact I]]|reflexivity].
  - split; [vm_compute; reflexivity|]. split; [eexists; vm_compute; reflexivity|reflexivity].
Qed.
