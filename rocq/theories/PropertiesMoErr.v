(** Properties C78 and C79: the errors of the .mo reader, and its memory. *)
From Coq Require Import Lia ZifyBool ZifyNat ZifyN.
From Verif Require Import GoStr GoStrFacts GoFmt GoMap FileModel PoModel MoModel MoSpec MoFacts ErrModel MoErrModel PoErrSpec MoErrSpec MoErrFacts MoMemFacts.
Local Open Scope N_scope.

(** ** C78: the error of a rejected .mo file *)
(** The reader with error values and buffers accepts and rejects as the one of
    the other properties, and reads the same catalog. *)
Theorem C78_reader : forall A (print : spec -> arg (val A) -> bytes) as_int extra err_read_mo eof unexpected_eof next content,
  match snd (read_mo_e print as_int extra err_read_mo eof unexpected_eof next content) with
  | MOk f => read_mo content = MoOk f
  | MFail _ => read_mo content = MoErr
  | MPanic => False
  end.
Proof.
  intros A print as_int extra err_read_mo eof unexpected_eof next content.
  pose proof (read_mo_bare print as_int extra err_read_mo eof unexpected_eof next content) as Q.
  destruct (snd _) as [f|x|]; cbn [bare_mo] in Q; try congruence.
  destruct (read_mo_total content) as [[f E]|E]; congruence.
Qed.
Print Assumptions C78_reader.
(** A content is rejected exactly if there is something wrong with it, and the
    error tells the first thing that is: its text, and its causes. *)
Theorem C78_error : forall A (print : spec -> arg (val A) -> bytes) as_int extra err_read_mo eof unexpected_eof next,
  mo_settings print err_read_mo eof unexpected_eof next -> forall content,
  let result := snd (read_mo_e print as_int extra err_read_mo eof unexpected_eof next content) in
  ((exists x, result = MFail x) <-> exists m r, fault content m r)
  /\ forall x m r, result = MFail x -> fault content m r ->
     e_msg x = told m r
     /\ Is true (Some x) (Some err_read_mo) = true
     /\ (Is true (Some x) (Some eof) = true <-> r = Nothing)
     /\ (Is true (Some x) (Some unexpected_eof) = true <-> r = Too_little).
Proof.
  intros A print as_int extra err_read_mo eof unexpected_eof next ST content result.
  pose proof (mo_error print as_int extra err_read_mo eof unexpected_eof next ST content) as M. fold result in M. split.
  - split.
    + intros [x E]. apply M in E as (m & r & F & _). eauto.
    + intros (m & r & F). eexists. apply M. exists m, r. auto.
  - intros x m r E F. assert (X : x = error_of err_read_mo eof unexpected_eof next m r).
    { assert (E' : result = MFail (error_of err_read_mo eof unexpected_eof next m r)) by (apply M; eauto). congruence. }
    subst x. split; [reflexivity|]. clear E F M result.
    destruct (ms_read _ _ _ _ _ ST) as [i Ei]. destruct (ms_eof _ _ _ _ _ ST) as [j Ej]. destruct (ms_ueof _ _ _ _ _ ST) as [k Ek].
    pose proof (ms_differ _ _ _ _ _ ST) as D. pose proof (ms_older _ _ _ _ _ ST) as O.
    assert (O1 := O eof (or_intror (or_introl eq_refl))). assert (O2 := O unexpected_eof (or_intror (or_intror (or_introl eq_refl)))).
    clear O ST. rewrite Ei, Ej, Ek in *. cbn [map e_ident] in *.
    apply NoDup_cons_iff in D as [N1 D]. apply NoDup_cons_iff in D as [N2 _]. cbn [In] in *.
    assert (Q : forall n m : nat, n <> m -> Nat.eqb n m = false) by (intros; apply Nat.eqb_neq; assumption).
    unfold error_of. split; [|split].
    + cbn [Is is_ e_ident existsb]. rewrite Nat.eqb_refl. cbn [andb orb]. apply orb_true_r.
    + destruct r; cbn [Is is_ e_ident existsb andb orb kids_of]; rewrite ?Nat.eqb_refl, ?(Q (S next) j), ?(Q i j), ?(Q next j), ?(Q k j) by (intuition congruence || lia);
        cbn [andb orb]; intuition (congruence || discriminate).
    + destruct r; cbn [Is is_ e_ident existsb andb orb kids_of]; rewrite ?Nat.eqb_refl, ?(Q (S next) k), ?(Q i k), ?(Q next k), ?(Q j k) by (intuition congruence || lia);
        cbn [andb orb]; intuition (congruence || discriminate).
Qed.
Print Assumptions C78_error.
(** what is told is unambiguous *)
Theorem C78_one_fault : forall content m r m' r', fault content m r -> fault content m' r' -> told m r = told m' r'.
Proof.
  set (pr := fun (d : spec) (v : arg (val unit)) => match v with VOther (VErr e) => e_msg e | VInt z => dec_Z z | _ => [] end).
  set (a := Err 0 (B "read mo") (fun _ => false) []). set (b := Err 1 (B "EOF") (fun _ => false) []).
  set (c := Err 2 (B "unexpected EOF") (fun _ => false) []).
  assert (ST : mo_settings pr a b c 3).
  { constructor; [reflexivity|intros n; destruct n; reflexivity|eexists; reflexivity..| |].
    - repeat constructor; cbn; intuition discriminate.
    - intros e [<-|[<-|[<-|[]]]]; cbn; lia. }
  intros content m r m' r' F F'.
  apply (fault_error pr (fun _ => None) (fun _ => []) a b c 3 ST) in F, F'. rewrite F in F'. injection F' as E _. unfold told. f_equal. exact E.
Qed.
Print Assumptions C78_one_fault.
Definition c78_print (d : spec) (v : arg (val nat)) : bytes := match v with VOther (VErr e) => e_msg e | VInt z => dec_Z z | _ => [] end.
Definition c78_mo : err := Err 0 (B "read mo") (fun _ => false) [].
Definition c78_eof : err := Err 1 (B "EOF") (fun _ => false) [].
Definition c78_ueof : err := Err 2 (B "unexpected EOF") (fun _ => false) [].
Definition c78_read := read_mo_e c78_print (fun _ => None) (fun _ => []) c78_mo c78_eof c78_ueof 3.
(** one string "abc" with the translation "xyz", of which the last byte is missing *)
Definition c78_file : bytes := words [0x950412de; 0; 1; 28; 36; 0; 0; 3; 44; 3; 47] ++ B "abcxy".
Example C78_case : mo_settings c78_print c78_mo c78_eof c78_ueof 3
  /\ (exists x, snd (c78_read c78_file) = MFail x /\ e_msg x = B "read mo: failed to read msg_str[0]: unexpected EOF")
  /\ (exists x, snd (c78_read (firstn 44 c78_file)) = MFail x /\ e_msg x = B "read mo: failed to read msg_id[0]: EOF")
  /\ (exists x, snd (c78_read (firstn 40 c78_file)) = MFail x /\ e_msg x = B "read mo: failed to read msg_str[0] length & offset: unexpected EOF")
  /\ (exists x, snd (c78_read (B "not a mo file")) = MFail x /\ e_msg x = B "read mo: invalid magic number: 544501614")
  /\ (exists f, snd (c78_read (c78_file ++ B "z")) = MOk f /\ f_entries f <> []).
Proof.
  split.
  { constructor; [reflexivity|intros n; destruct n; reflexivity|eexists; reflexivity..| |].
    - repeat constructor; cbn; intuition discriminate.
    - intros e [<-|[<-|[<-|[]]]]; cbn; lia. }
  repeat split; eexists; vm_compute; (split; [reflexivity|]); (reflexivity || discriminate).
Qed.

(** ** C79: the memory of reading a .mo file *)
(** ReadMo asks for at most one buffer for every four bytes of the content, each
    below 4 GB.  All but possibly the last one are not longer than the content,
    and if the file is accepted, the last one neither.
    Partial: the total is not bounded by a small multiple of the content. *)
Theorem C79_memory_partial : forall A (print : spec -> arg (val A) -> bytes) as_int extra err_read_mo eof unexpected_eof next content q r,
  read_mo_e print as_int extra err_read_mo eof unexpected_eof next content = (q, r) ->
  4 * N.of_nat (length q) <= size content
  /\ (forall x, In x q -> x < 2 ^ 32)
  /\ (forall x, In x (removelast q) -> x <= size content)
  /\ (forall f x, r = MOk f -> In x q -> x <= size content)
  /\ (forall f, r = MOk f -> 4 * total q <= size content * size content)
  /\ 4 * total q <= size content * size content + 4 * 2 ^ 32.
Proof.
  intros A print as_int extra err_read_mo eof unexpected_eof next content q r E.
  pose proof (mo_modest print as_int extra err_read_mo eof unexpected_eof next content) as M. rewrite E in M. cbn [fst snd] in M.
  destruct M as [(d & o & -> & Ln & Hd & H32 & Lo & Ho)| -> ].
  2:{ cbn [length removelast total fold_right]. repeat split; try lia; intros; try lia; contradiction. }
  assert (L4 : 4 * N.of_nat (length (d ++ o)) <= size content).
  { pose proof (N.div_mod (size content) 4 ltac:(lia)). lia. }
  assert (Td : 4 * total d <= size content * size content).
  { pose proof (total_le _ _ Hd) as T. rewrite app_length in L4.
    assert (4 * N.of_nat (length d) * size content <= size content * size content) by (apply N.mul_le_mono_r; lia). lia. }
  assert (Ok : forall f, r = MOk f -> o = []).
  { intros f ->. destruct o as [|y o]; [reflexivity|]. destruct (proj1 Ho ltac:(discriminate)) as [e [=]]. }
  split; [exact L4|]. split; [exact H32|]. destruct o as [|y [|y' o]]; [| |cbn [length] in Lo; lia].
  - rewrite app_nil_r in *. split.
    { intros x I. apply Hd. clear - I. induction d as [|a d IH]; [destruct I|]. destruct d as [|b d]; [destruct I|]. destruct I as [->|I]; [left; reflexivity|right; apply IH, I]. }
    split; [intros f x _ I; apply Hd, I|]. split; [auto|lia].
  - rewrite removelast_last. split; [exact Hd|]. split; [intros f x F; discriminate (Ok f F)|].
    split; [intros f F; discriminate (Ok f F)|].
    assert (Y : y < 2 ^ 32) by (apply H32, in_or_app; right; left; reflexivity).
    rewrite total_app. cbn [total fold_right]. lia.
Qed.
Print Assumptions C79_memory_partial.
(** A file of 44 bytes makes ReadMo ask for a buffer of four gigabytes before it
    notices that the bytes are not there. *)
Theorem C79_rejected_refuted : exists content q x, size content = 44 /\ c78_read content = (q, MFail x)
  /\ total q = 2 ^ 32 - 1 /\ e_msg x = B "read mo: failed to read msg_id[0]: EOF".
Proof.
  exists (words [0x950412de; 0; 1; 28; 36; 0; 0; 2 ^ 32 - 1; 44; 0; 0]). do 2 eexists. split; [vm_compute; reflexivity|].
  split; [vm_compute; reflexivity|]. split; vm_compute; reflexivity.
Qed.
Print Assumptions C79_rejected_refuted.
(** For accepted files there is no fixed multiple either: the strings may
    overlap, and in this file each is the whole file. *)
Theorem C79_accepted_refuted : forall n, 28 + 8 * N.of_nat n < 2 ^ 32 -> exists content f,
  size content = 28 + 8 * N.of_nat n /\ read_mo content = MoOk f
  /\ exists q, c78_read content = (q, MOk f) /\ total q = 2 * N.of_nat n * size content.
Proof.
  intros n H. destruct (heavy_reads c78_print (fun _ => None) (fun _ => []) c78_mo c78_eof c78_ueof 3 n H) as [g E].
  exists (heavy n), g. split; [apply heavy_size|]. split.
  - pose proof (C78_reader _ c78_print (fun _ => None) (fun _ => []) c78_mo c78_eof c78_ueof 3 (heavy n)) as R. rewrite E in R. exact R.
  - eexists. split; [exact E|]. generalize (size (heavy n)) as z. intros z. clear E H g.
    induction n as [|n IH]; [reflexivity|]. replace (2 * S n)%nat with (S (S (2 * n))) by lia. cbn [repeat total fold_right].
    fold (total (repeat z (2 * n))). rewrite IH. lia.
Qed.
Print Assumptions C79_accepted_refuted.
Example C79_case : (exists f, c78_read (c78_file ++ B "z") = ([3; 3], MOk f)) /\ 28 + 8 * N.of_nat 1000 < 2 ^ 32
  /\ 2 * N.of_nat 1000 * (28 + 8 * N.of_nat 1000) = 16056000.
Proof. split; [eexists; vm_compute; reflexivity|]. split; reflexivity. Qed.
