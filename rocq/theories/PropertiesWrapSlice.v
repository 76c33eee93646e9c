(** C99: what errors.Wrapf does to the arguments of its caller. *)
From Coq Require Import Lia ZifyBool ZifyNat ZifyN.
From Verif Require Import GoStr GoStrFacts GoFmt SliceModel SliceFacts ErrModel WrapSliceModel.

(** what a caller can see of a memory: the elements of its arrays *)
Definition seen {V} (h : heap V) (array i : nat) : option V :=
  match nth_error h array with Some a => nth_error a i | None => None end.
(** the place just behind the arguments, if the array goes on there *)
Definition behind {V} (h : heap V) (args : slice) (array i : nat) : Prop :=
  array = sl_arr args /\ i = (sl_off args + sl_len args)%nat /\ (sl_len args < sl_cap args)%nat.
Lemma nth_seen {V} (h : heap V) k i a : nth_error h k = Some a -> seen h k i = nth_error a i.
Proof. unfold seen. intros ->. reflexivity. Qed.
Lemma append_seen {V} room (h : heap V) s v : slice_ok h s -> let h' := fst (append1 room h s v) in
  (forall k i, (k < length h)%nat -> ~ behind h s k i -> seen h' k i = seen h k i) /\ (forall k i, behind h s k i -> seen h' k i = Some v)
  /\ (length h <= length h')%nat.
Proof.
  intros Ok. pose proof (append1_spec room h s v Ok) as Sp. assert (Lh : (length h <= length (fst (append1 room h s v)))%nat).
  { unfold append1. destruct (Nat.ltb _ _); [destruct (nth_error h (sl_arr s)) as [a|] eqn:E|]; cbn [fst].
    - unfold update. assert (sl_arr s < length h)%nat by (apply nth_error_Some; congruence).
      rewrite app_length. cbn [length]. rewrite firstn_length, skipn_length. lia.
    - lia.
    - rewrite app_length. lia. }
  destruct (append1 room h s v) as [h' s']. cbn [fst] in *. destruct Sp as (_ & _ & S3 & S4 & S5). split; [|split; [|exact Lh]].
  - intros k i Lk N. destruct (Nat.eq_dec k (sl_arr s)) as [->|Nk].
    + destruct Ok as (L & a & Ea & _). destruct (S4 a i Ea) as (a' & Ea' & _ & H). rewrite (nth_seen _ _ _ _ Ea), (nth_seen _ _ _ _ Ea').
      apply H. destruct (Nat.eq_dec i (sl_off s + sl_len s)) as [->|Ni]; [|left; exact Ni]. right.
      destruct (Nat.eq_dec (sl_len s) (sl_cap s)) as [E|E]; [exact E|]. destruct N. repeat split. lia.
    + unfold seen. rewrite S3 by assumption. reflexivity.
  - intros k i (-> & -> & L). destruct (S5 L) as (a' & E & E'). rewrite (nth_seen _ _ _ _ E). exact E'.
Qed.

(** One call: the error is the one Wrapf makes of the elements; every element of every
    array stays, but the one behind the arguments, if there is room, becomes the error
    that is wrapped, also if there are no arguments. *)
Theorem C99_one : forall A (print : spec -> arg (val A) -> bytes) as_int extra next room h e format args, slice_ok h args ->
  let r := wrapf_heap print as_int extra next room h e format args in
  fst r = Wrapf print as_int extra next e format (elems h args)
  /\ (forall k i, (k < length h)%nat -> ~ behind h args k i -> seen (snd r) k i = seen h k i)
  /\ (forall k i, behind h args k i -> seen (snd r) k i = Some (boxed e)).
Proof.
  intros A print as_int extra next room h e format args Ok. cbv zeta. unfold wrapf_heap, Wrapf.
  pose proof (append1_spec room h args (boxed e) Ok) as Sp. pose proof (append_seen room h args (boxed e) Ok) as (H1 & H2 & _).
  destruct (append1 room h args (boxed e)) as [h' args']. cbn [fst snd] in *. destruct Sp as (-> & _). auto.
Qed.
(** Any number of calls with slices without room, as Go makes them of listed arguments: all
    memory is as before and each error is the one of its own arguments. *)
Lemma full_keeps {V} room (h : heap V) s v : slice_ok h s -> sl_len s = sl_cap s ->
  (forall k, (k < length h)%nat -> nth_error (fst (append1 room h s v)) k = nth_error h k) /\ (length h <= length (fst (append1 room h s v)))%nat.
Proof.
  intros Ok E. unfold append1. destruct (Nat.ltb_spec (sl_len s) (sl_cap s)); [lia|]. cbn [fst]. split; [|rewrite app_length; lia].
  intros k L. apply nth_error_app1, L.
Qed.
Lemma same_elems {V} (h h' : heap V) s : slice_ok h s -> (forall k, (k < length h)%nat -> nth_error h' k = nth_error h k) -> elems h' s = elems h s /\ slice_ok h' s.
Proof.
  intros (L & a & E & Lc) H. assert (sl_arr s < length h)%nat by (apply nth_error_Some; congruence).
  unfold elems, slice_ok. rewrite H by assumption. split; [reflexivity|]. split; [exact L|]. exists a. auto.
Qed.
Theorem C99_full_partial : forall A (print : spec -> arg (val A) -> bytes) as_int extra calls next h,
  (forall room e format args, In (room, e, format, args) calls -> slice_ok h args /\ sl_len args = sl_cap args) ->
  let r := wrap_all print as_int extra next h calls in
  (forall k, (k < length h)%nat -> nth_error (snd r) k = nth_error h k)
  /\ length (fst r) = length calls
  /\ forall i room e format args x, nth_error calls i = Some (room, e, format, args) -> nth_error (fst r) i = Some x ->
       x = Wrapf print as_int extra (next + i) e format (elems h args).
Proof.
  intros A print as_int extra calls. cbv zeta. induction calls as [|[[[room e] format] args] calls IH]; intros next h H.
  - cbn [wrap_all fst snd length]. repeat split; auto. intros [|i] *; discriminate.
  - cbn [wrap_all]. destruct (H _ _ _ _ (or_introl eq_refl)) as [Ok Fl].
    pose proof (C99_one A print as_int extra next room h e format args Ok) as (E1 & _).
    destruct (full_keeps room h args (boxed e) Ok Fl) as [K Lh].
    unfold wrapf_heap in *. destruct (append1 room h args (boxed e)) as [h' args']. cbn [fst snd] in *.
    specialize (IH (S next) h'). destruct (wrap_all print as_int extra (S next) h' calls) as [xs h2]. cbn [fst snd] in *.
    destruct IH as (I1 & I2 & I3).
    { intros room2 e2 f2 a2 I. destruct (H _ _ _ _ (or_intror I)) as [O2 F2]. split; [|exact F2]. exact (proj2 (same_elems h h' a2 O2 K)). }
    split; [intros k L; rewrite I1 by lia; apply K, L|]. split; [cbn [length]; congruence|].
    intros [|i] room2 e2 f2 a2 x N N'; cbn [nth_error] in *.
    + injection N as <- <- <- <-. injection N' as <-. rewrite Nat.add_0_r. exact E1.
    + rewrite (I3 i _ _ _ _ _ N N'). replace (S next + i)%nat with (next + S i)%nat by lia.
      f_equal. apply same_elems; [|exact K]. apply nth_error_In in N. apply (H _ _ _ _ (or_intror N)).
Qed.
(** With room the arguments of another call change: two calls whose argument lists begin
    one slice, the second of which asks for an element the first has overwritten. *)
Definition w_print (d : spec) (v : arg (val nat)) : bytes := match v with VOther (VErr e) => e_msg e | VStr s => s | _ => B "?" end.
Definition w_leaf (n : nat) (m : bytes) : err := Err n m (fun _ => false) [].
Definition w_h : heap (arg (val nat)) := [[VStr (B "a"); VStr (B "b")]].
Definition w_slice (n : nat) : slice := {| sl_arr := 0; sl_off := 0; sl_len := n; sl_cap := 2 |}.
Theorem C99_room_refuted : exists h long short, slice_ok h long /\ slice_ok h short /\
  let r := wrap_all w_print (fun _ => None) (fun _ => []) 9 h [([], Some (w_leaf 1 (B "one")), B "%s", short); ([], Some (w_leaf 2 (B "two")), B "%s %s", long)] in
  map e_msg (fst r) = [B "a: one"; B "a one: two"]
  /\ e_msg (Wrapf w_print (fun _ => None) (fun _ => []) 10 (Some (w_leaf 2 (B "two"))) (B "%s %s") (elems h long)) = B "a b: two".
Proof.
  exists w_h, (w_slice 2), (w_slice 1).
  assert (Ok : forall n, (n <= 2)%nat -> slice_ok w_h (w_slice n)).
  { intros n L. split; [exact L|]. eexists. split; [reflexivity|]. cbn. lia. }
  split; [apply Ok; lia|]. split; [apply Ok; lia|]. split; vm_compute; reflexivity.
Qed.
Print Assumptions C99_one.
Print Assumptions C99_full_partial.
Print Assumptions C99_room_refuted.
Example C99_case :
  slice_ok w_h (w_slice 0) /\ behind w_h (w_slice 0) 0 0
  /\ seen (snd (wrapf_heap w_print (fun _ => None) (fun _ => []) 9 [] w_h (Some (w_leaf 1 (B "one"))) (B "x") (w_slice 0))) 0 0 = Some (boxed (Some (w_leaf 1 (B "one"))))
  /\ slice_ok w_h (w_slice 2) /\ sl_len (w_slice 2) = sl_cap (w_slice 2).
Proof.
  split; [split; [cbn; lia|eexists; split; [reflexivity|cbn; lia]]|]. split; [repeat split; cbn; lia|]. split; [vm_compute; reflexivity|].
  split; [split; [cbn; lia|eexists; split; [reflexivity|cbn; lia]]|reflexivity].
Qed.
