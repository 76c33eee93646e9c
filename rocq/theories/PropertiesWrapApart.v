(** C99 for slices with room that do not overlap. *)
From Coq Require Import Lia.
From Verif Require Import GoStr GoStrFacts GoFmt SliceModel SliceFacts ErrModel WrapSliceModel PropertiesWrapSlice.

(** an element of the arguments *)
Definition within {V} (h : heap V) (args : slice) (array i : nat) : Prop :=
  array = sl_arr args /\ (sl_off args <= i < sl_off args + sl_len args)%nat.
Lemma skipn_nth {V} : forall o (a : list V) x, nth_error a o = Some x -> skipn o a = x :: skipn (S o) a.
Proof.
  induction o as [|o IH]; intros [|y a] x E; try discriminate; cbn [nth_error] in E; [injection E as ->; reflexivity|].
  cbn [skipn]. rewrite (IH a x E). reflexivity.
Qed.
Lemma same_part {V} (a b : list V) : forall n o, (o + n <= length a)%nat ->
  (forall i, (o <= i < o + n)%nat -> nth_error b i = nth_error a i) -> firstn n (skipn o b) = firstn n (skipn o a).
Proof.
  induction n as [|n IH]; intros o L H; [reflexivity|]. destruct (nth_error a o) as [x|] eqn:E; [|apply nth_error_None in E; lia].
  assert (E' : nth_error b o = Some x) by (rewrite H; [exact E|lia]).
  rewrite (skipn_nth o a x E), (skipn_nth o b x E'). cbn [firstn]. f_equal. apply IH; [lia|]. intros i Hi. apply H. lia.
Qed.
Lemma elems_seen {V} (h h' : heap V) s : slice_ok h s -> slice_ok h' s ->
  (forall i, within h s (sl_arr s) i -> seen h' (sl_arr s) i = seen h (sl_arr s) i) -> elems h' s = elems h s.
Proof.
  intros (L & a & E & La) (_ & b & E' & Lb) H. unfold elems. rewrite E, E'. apply same_part; [lia|].
  intros i Hi. rewrite <- (nth_seen h _ i a E), <- (nth_seen h' _ i b E'). apply H. split; [reflexivity|exact Hi].
Qed.
Lemma append_ok {V} room (h : heap V) s v t : slice_ok h s -> slice_ok h t -> slice_ok (fst (append1 room h s v)) t.
Proof.
  intros Ok (L & a & E & La). pose proof (append1_spec room h s v Ok) as Sp. destruct (append1 room h s v) as [h' s']. cbn [fst].
  destruct Sp as (_ & _ & S3 & S4 & _). split; [exact L|]. destruct (Nat.eq_dec (sl_arr t) (sl_arr s)) as [Q|Q].
  - rewrite Q in *. destruct (S4 a 0%nat E) as (a' & E' & Q' & _). exists a'. split; [exact E'|lia].
  - exists a. split; [|exact La]. rewrite S3; [exact E|exact Q|]. apply nth_error_Some. congruence.
Qed.
(** Any number of calls, with room or without: if the place behind the arguments of
    a call holds no argument of any call, every error is the one of its own
    arguments, and all memory is as before but for the places behind the
    arguments.
    Full statement: whatever the slices.  Missing: slices that overlap, C99_room_refuted. *)
Theorem C99_apart_partial : forall A (print : spec -> arg (val A) -> bytes) as_int extra calls next h,
  (forall room e format args, In (room, e, format, args) calls -> slice_ok h args) ->
  (forall room e format args room' e' format' args' k i, In (room, e, format, args) calls -> In (room', e', format', args') calls ->
     behind h args k i -> ~ within h args' k i) ->
  let r := wrap_all print as_int extra next h calls in
  length (fst r) = length calls
  /\ (forall j room e format args x, nth_error calls j = Some (room, e, format, args) -> nth_error (fst r) j = Some x ->
       x = Wrapf print as_int extra (next + j) e format (elems h args))
  /\ (forall k i, (k < length h)%nat -> (forall room e format args, In (room, e, format, args) calls -> ~ behind h args k i) ->
       seen (snd r) k i = seen h k i).
Proof.
  intros A print as_int extra calls. cbv zeta. induction calls as [|[[[room e] format] args] calls IH]; intros next h H D.
  - cbn [wrap_all fst snd length]. repeat split; auto. intros [|i] *; discriminate.
  - cbn [wrap_all]. pose proof (H _ _ _ _ (or_introl eq_refl)) as Ok.
    pose proof (C99_one A print as_int extra next room h e format args Ok) as (E1 & E2 & _).
    pose proof (append_seen room h args (boxed e) Ok) as (_ & _ & Lh). pose proof (append_ok room h args (boxed e)) as Oks.
    unfold wrapf_heap in *. destruct (append1 room h args (boxed e)) as [h' args']. cbn [fst snd] in *.
    specialize (IH (S next) h'). destruct (wrap_all print as_int extra (S next) h' calls) as [xs h2]. cbn [fst snd] in *.
    destruct IH as (I1 & I2 & I3).
    { intros room2 e2 f2 a2 I. exact (Oks a2 Ok (H _ _ _ _ (or_intror I))). }
    { intros r1 e1 f1 a1 r2 e2 f2 a2 k i J1 J2 Bh Wn. exact (D _ _ _ _ _ _ _ _ k i (or_intror J1) (or_intror J2) Bh Wn). }
    split; [cbn [length]; congruence|]. split.
    + intros [|j] room2 e2 f2 a2 x N N'; cbn [nth_error] in *.
      * injection N as <- <- <- <-. injection N' as <-. rewrite Nat.add_0_r. exact E1.
      * rewrite (I2 j _ _ _ _ _ N N'). replace (S next + j)%nat with (next + S j)%nat by lia. f_equal. apply nth_error_In in N.
        pose proof (H _ _ _ _ (or_intror N)) as O2. apply elems_seen; [exact O2|exact (Oks a2 Ok O2)|].
        intros i Wn. apply E2; [|intros Bh; exact (D _ _ _ _ _ _ _ _ _ i (or_introl eq_refl) (or_intror N) Bh Wn)].
        destruct O2 as (_ & a & Ea & _). apply nth_error_Some. congruence.
    + intros k i L Nb. rewrite I3; [apply E2; [exact L|exact (Nb _ _ _ _ (or_introl eq_refl))]|lia|].
      intros r2 e2 f2 a2 J Bh. exact (Nb _ _ _ _ (or_intror J) Bh).
Qed.
Print Assumptions C99_apart_partial.
(** Two slices with room in one array, two elements apart. *)
Example C99_apart_case :
  let h : heap (arg (val nat)) := [[VStr (B "a"); VStr (B "-"); VStr (B "b"); VStr (B "-")]] in
  let at_ o := {| sl_arr := 0; sl_off := o; sl_len := 1; sl_cap := 2 |} in
  let calls := [([], Some (w_leaf 1 (B "one")), B "%s", at_ 0%nat); ([], Some (w_leaf 2 (B "two")), B "%s", at_ 2%nat)] in
  (forall room e format args, In (room, e, format, args) calls -> slice_ok h args)
  /\ (forall room e format args room' e' format' args' k i, In (room, e, format, args) calls -> In (room', e', format', args') calls ->
       behind h args k i -> ~ within h args' k i)
  /\ map e_msg (fst (wrap_all w_print (fun _ => None) (fun _ => []) 9 h calls)) = [B "a: one"; B "b: two"].
Proof.
  cbv zeta. split; [|split; [|vm_compute; reflexivity]].
  - intros room e format args [E|[E|[]]]; injection E as <- <- <- <-; (split; [cbn; lia|]); eexists; (split; [reflexivity|]); cbn; lia.
  - intros room e format args room' e' format' args' k i [E|[E|[]]] [E'|[E'|[]]] (Q1 & Q2 & Q3) (Q4 & Q5);
      injection E as <- <- <- <-; injection E' as <- <- <- <-; cbn in *; lia.
Qed.
