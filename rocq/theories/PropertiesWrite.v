(** C74: a save that reports success is complete. *)
From Coq Require Import Lia ZArith.
From Verif Require Import MoFacts MoCatalogFacts PoCatalogFacts GoStr GoStrFacts GoMap FileModel FileSpec PoModel PoSpec MoModel MoSpec XtModel XtSpec XtRunFacts WriteModel WriteSpec WriteFacts
  MainModel MainSpec MainFacts PropertiesPo PropertiesMo PropertiesXt PropertiesMain.
Local Open Scope Z_scope.

(** Whatever the destination does, as long as it keeps io.Writer's contract: the
    destination has received a beginning of a correct file; all of it if saving
    returns nil; saving returns an error only if the destination did. *)
Theorem C74_saves : forall isp written f r taken, honest written ->
  (saves_po_to isp written f r taken ->
     r <> SPanic /\ (r = SNil -> saves_po isp f taken) /\ exists rest, saves_po isp f (taken ++ rest) /\ (r = SErr -> exists n, written (taken ++ rest) = (n, true)))
  /\ (saves_pot_to isp written f r taken ->
     r <> SPanic /\ (r = SNil -> saves_pot isp f taken) /\ exists rest, saves_pot isp f (taken ++ rest) /\ (r = SErr -> exists n, written (taken ++ rest) = (n, true)))
  /\ (saves_mo_to written f r taken ->
     r <> SPanic /\ (r = SNil -> saves_mo f taken) /\ exists rest, saves_mo f (taken ++ rest) /\ (r = SErr -> exists n, written (taken ++ rest) = (n, true))).
Proof.
  intros isp written f r taken H.
  repeat split; destruct H0 as (out & S & W); destruct (write_to_honest _ _ _ _ H W) as (A & (rest & ->) & C & D); auto;
    try (intros E; specialize (C E); rewrite <- C in S; exact S); exists rest; auto.
Qed.
Print Assumptions C74_saves.
(** in particular, after a save without error the destination holds the catalog *)
Theorem C74_po : forall isp written f taken, honest written -> saves_po_to isp written f SNil taken ->
  filed f -> (forall e, In e (vals (f_entries f)) -> po_ok e) -> f_entries f <> [] ->
  exists f', read_po taken = PoOk f' /\ forall k e, mget k (f_entries f') = Some e <-> mget k (f_entries f) = Some e /\ translated e.
Proof.
  intros isp written f taken H Sv F Ok Ne. destruct (C74_saves isp written f SNil taken H) as [P _]. destruct (P Sv) as (_ & Q & _).
  destruct (C21_round_trip_partial isp f taken F Ok Ne (Q eq_refl)) as (f' & R & _ & E). exists f'. auto.
Qed.
Print Assumptions C74_po.
Theorem C74_mo : forall written f taken, honest written -> saves_mo_to written f SNil taken ->
  filed f -> (forall e, In e (vals (f_entries f)) -> mo_ok e) -> (N.of_nat (length taken) < 2 ^ 32)%N ->
  exists f', read_mo taken = MoOk f' /\ forall k, mget k (f_entries f') = option_map strip (mget k (f_entries f)).
Proof.
  intros written f taken H Sv F Ok L. destruct (C74_saves (fun _ => true) written f SNil taken H) as (_ & _ & P). destruct (P Sv) as (_ & Q & _).
  destruct (C29_round_trip_partial f taken F Ok (Q eq_refl) L) as (f' & R & _ & E). exists f'. auto.
Qed.
Print Assumptions C74_mo.
(** a destination that takes everything makes every save succeed *)
Theorem C74_succeeds : forall isp written f r taken, faultless written ->
  saves_po_to isp written f r taken \/ saves_pot_to isp written f r taken \/ saves_mo_to written f r taken -> r = SNil.
Proof.
  intros isp written f r taken H [(out & _ & W)|[(out & _ & W)|(out & _ & W)]]; rewrite (write_to_faultless _ _ H) in W; congruence.
Qed.
Print Assumptions C74_succeeds.
(** whatever the destination answers: success exactly if it reports the whole text as taken
    (nothing is asked of it for an empty text), a panic exactly if it reports more *)
Definition outcome (written : bytes -> Z * bool) (text : bytes) (r : saved) : Prop :=
  let whole := Z.of_nat (length text) in
  (r = SNil <-> text = [] \/ written text = (whole, false))
  /\ (r = SPanic <-> text <> [] /\ exists n e, written text = (n, e) /\ whole < n).
Theorem C74_outcome : forall isp written f r taken,
  (saves_po_to isp written f r taken -> exists text, saves_po isp f text /\ outcome written text r)
  /\ (saves_pot_to isp written f r taken -> exists text, saves_pot isp f text /\ outcome written text r)
  /\ (saves_mo_to written f r taken -> exists text, saves_mo f text /\ outcome written text r).
Proof.
  intros isp written f r taken.
  assert (Q : forall text, write_to written text = (r, taken) -> outcome written text r).
  { intros [|c t]; cbn [write_to].
    - intros [= <- <-]. split; split; auto; try discriminate. intros [H _]. congruence.
    - set (s := c :: t). assert (Ns : s <> []) by discriminate. clearbody s. destruct (written s) as [n e] eqn:W.
      unfold outcome. cbv zeta. rewrite W. destruct (Z.gtb_spec n (Z.of_nat (length s))) as [G|G]; intros H; apply pair_equal_spec in H as [<- _].
      + split; split; try discriminate; auto.
        * intros [H|[= -> _]]; [contradiction|lia].
        * intros _. split; [exact Ns|]. exists n, e. auto.
      + assert (X : ~ exists n' e', (n, e) = (n', e') /\ Z.of_nat (length s) < n') by (intros (n' & e' & [= <- <-] & L); lia).
        destruct e; [|destruct (Z.eqb_spec n (Z.of_nat (length s))) as [->|Nn]]; split; split; try discriminate; auto; try tauto;
          intros [H|H]; congruence. }
  split; [|split]; intros (text & Sv & W); exists text; auto.
Qed.
Print Assumptions C74_outcome.

(** xtemplate: a run that succeeds has done what it does when nothing fails; the
    file system differs from that only in representation *)
Section Tool.
Variable isp : N -> bool.
Variable globs : fs -> bytes -> option (list bytes).
Variable creatable : bytes -> bool.
Variable parses : list bytes -> bytes -> bytes -> bytes -> option (list tnode).
Variable letter number : N -> bool.
Variable written : bytes -> Z * bool.
Variable closes : bool.
Notation runs_io := (runs_io isp globs creatable parses letter number written closes).
Notation runs := (runs isp globs creatable parses letter number).
Theorem C74_run : forall now p w w' out, honest written -> runs_io now p w ROk w' out ->
  exists w1, runs now p w ROk w1 out /\ (forall n, w' n = w1 n) /\ (is_file (p_output p) -> closes = true).
Proof.
  intros now p w w' out H R. inversion R as [|w1 out1 text r taken R1 T W E1 E2 E3]; subst; [congruence|].
  destruct (write_to_honest _ _ _ _ H W) as (_ & _ & C & _).
  destruct r; [|discriminate..]. specialize (C eq_refl). subst taken. exists w1.
  assert (I := to_file_iff p).
  destruct T as [[T X]|[T ->]]; rewrite T in *; cbn [andb] in E1.
  - split; [|split].
    + assert (O : out1 = []) by (inversion R1; subst; destruct (to_file p); congruence). rewrite <- O. exact R1.
    + intros n. unfold fs_set. destruct (beq_spec n (p_output p)); congruence.
    + intros _. destruct closes; [reflexivity|discriminate].
  - split; [exact R1|]. split; [reflexivity|]. intros F. apply I in F. discriminate.
Qed.
(** whatever happens, only the output file changes, and it receives a beginning
    of the template that would have been written *)
Theorem C74_failed_run : forall now p w o w' out, honest written -> runs_io now p w o w' out ->
  (forall n, n <> p_output p \/ ~ is_file (p_output p) -> w' n = w n)
  /\ (o = RPanic -> runs now p w RPanic w' out)
  /\ (o = RFail -> runs now p w RFail w' out
        \/ exists w1 out1 taken rest, runs now p w ROk w1 out1 /\ produced p w1 out1 (taken ++ rest) /\ produced p w' out taken
             /\ ((exists n, written (taken ++ rest) = (n, true)) \/ rest = [] /\ is_file (p_output p) /\ closes = false)).
Proof.
  intros now p w o w' out H R. inversion R as [o1 w1 out1 R1 N E1 E2 E3|w1 out1 text r taken R1 T W E1 E2 E3]; subst.
  - split; [|split; [intros ->; exact R1|intros ->; left; exact R1]]. intros n Hn. exact (runs_others isp globs creatable parses letter number now p w o w' out n R1 Hn).
  - assert (I := to_file_iff p). destruct (write_to_honest _ _ _ _ H W) as (A & (rest & ->) & C & D).
    split; [|split].
    + intros n Hn. destruct (to_file p) eqn:T1; [|exact (runs_others isp globs creatable parses letter number now p w ROk w1 out1 n R1 Hn)].
      rewrite <- (runs_others isp globs creatable parses letter number now p w ROk w1 out1 n R1 Hn).
      unfold fs_set. destruct (beq_spec n (p_output p)); [|reflexivity]. exfalso. destruct Hn as [Hn|Hn]; [auto|]. apply Hn, I. reflexivity.
    + destruct r; [destruct (to_file p && negb closes)%bool; discriminate|discriminate|congruence].
    + intros E. right. exists w1, out1, taken, rest. split; [exact R1|]. unfold produced.
      assert (P : (exists n, written (taken ++ rest) = (n, true)) \/ rest = [] /\ is_file (p_output p) /\ closes = false).
      { destruct r; [|left; auto|discriminate]. right. specialize (C eq_refl). split.
        - rewrite <- app_nil_r in C at 1. apply app_inv_head in C. auto.
        - rewrite <- I. destruct (to_file p), closes; auto; discriminate. }
      destruct T as [[T X]|[T ->]]; rewrite T in *.
      * assert (F : is_file (p_output p)) by (apply I; reflexivity). split; [|split]; [left; auto|left; split; [exact F|]|exact P].
        unfold fs_set. rewrite beq_refl. reflexivity.
      * assert (F : ~ is_file (p_output p)) by (intros F; apply I in F; discriminate). split; [|split]; auto.
Qed.
(** and when nothing fails it does what [runs] says *)
Theorem C74_faultless_run : forall now p w o w' out, faultless written -> closes = true -> runs now p w o w' out ->
  exists w1, runs_io now p w o w1 out /\ forall n, w1 n = w' n.
Proof.
  intros now p w o w' out H Cl R. destruct o.
  2,3: exists w'; split; [apply IO_before; [exact R|discriminate]|reflexivity].
  assert (T : exists text, (to_file p = true /\ w' (p_output p) = Some text \/ to_file p = false /\ out = text) /\ (to_file p = true -> out = [])).
  { inversion R; subst. destruct (to_file p) eqn:T.
    - exists out0. split; [|auto]. left. unfold fs_set. rewrite beq_refl. auto.
    - exists out0. split; [|discriminate]. auto. }
  destruct T as (text & T & T').
  assert (W := write_to_faultless _ text H).
  exists (if to_file p then fs_set w' (p_output p) text else w').
  assert (K := IO_write isp globs creatable parses letter number written closes now p w w' out text SNil text R T W).
  rewrite Cl, Bool.andb_false_r, <- Cl in K. split.
  - replace out with (if to_file p then [] else text) at 1; [exact K|]. destruct T as [[T _]|[T <-]]; rewrite T; [symmetry; auto|reflexivity].
  - intros n. destruct T as [[T X]|[T _]]; rewrite T; [|reflexivity]. unfold fs_set. destruct (beq_spec n (p_output p)); congruence.
Qed.
End Tool.
Print Assumptions C74_run.
Print Assumptions C74_failed_run.
Print Assumptions C74_faultless_run.

(** the command: exit status 0 without -v or -h means a complete template *)
Theorem C74_status : forall isp globs creatable parses letter number written closes version info now args vs w w' out,
  honest written -> command vs args -> bool_of (B "v") vs = false -> bool_of (B "h") vs = false ->
  main isp globs creatable parses letter number written closes version info now args w 0 w' out ->
  exists w1 text dbg, runs isp globs creatable parses letter number now
      {| p_input := text_of (B "i") [] vs; p_left := text_of (B "left") (B "{{") vs; p_right := text_of (B "right") (B "}}") vs;
         p_keyword := text_of (B "k") [] vs; p_function := text_of (B "f") [] vs; p_output := text_of (B "o") [] vs |} w ROk w1 text
    /\ (forall n, w' n = w1 n) /\ out = dbg ++ text /\ (bool_of (B "d") vs = false -> dbg = []).
Proof.
  intros isp globs creatable parses letter number written closes version info now args vs w w' out H C Hv Hh M.
  assert (Q : trim_space (text_of (B "i") [] vs) <> [] /\ trim_space (text_of (B "k") [] vs) <> []).
  { destruct (C72_stops _ _ _ _ _ _ _ _ _ _ _ _ _ _ _ _ _ C M) as (_ & _ & St). specialize (St Hv Hh).
    split; intros E; [destruct (St (or_introl E)) as [? _]|destruct (St (or_intror E)) as [? _]]; discriminate. }
  destruct Q as [Qi Qk]. apply (C72_run _ _ _ _ _ _ _ _ _ _ _ _ _ _ _ _ _ C Hv Hh Qi Qk) in M as (o & text & dbg & R & -> & D & _ & K).
  destruct K as [[-> _]|[_ K]]; [|discriminate].
  apply C74_run in R as (w1 & R & E & _); [|exact H]. exists w1, text, dbg. auto.
Qed.
Print Assumptions C74_status.

(** a disk with room for [room] bytes keeps the contract; one that takes the
    first half and says nothing does not, but the save reports it all the same *)
Definition disk (room : Z) (b : bytes) : Z * bool :=
  if Z.of_nat (length b) <=? room then (Z.of_nat (length b), false) else (Z.max 0 room, true).
Example C74_disk : forall room, honest (disk room).
Proof.
  intros room b n e. unfold disk. destruct (Z.of_nat (length b) <=? room) eqn:L; intros [= <- <-]; [lia|].
  apply Z.leb_gt in L. split; [lia|reflexivity].
Qed.
Example C74_case : write_to (disk 5) (B "msgid """"") = (SErr, B "msgid") /\ write_to (disk 100) (B "msgid """"") = (SNil, B "msgid """"")
  /\ write_to (fun b => (3, false)) (B "msgid """"") = (SErr, B "msg").
Proof. repeat split. Qed.
Example C74_outcome_case : outcome (fun _ => (100, false)) (B "msgid") SPanic /\ outcome (fun _ => (4, false)) (B "msgid") SErr /\ outcome (fun _ => (4, false)) [] SNil.
Proof.
  repeat split; try discriminate; auto.
  - intros [H|H]; discriminate.
  - exists 100, false. split; [reflexivity|]. cbn. lia.
  - intros [H|H]; discriminate.
  - intros (_ & n & e & [= <- <-] & L). cbn in L. lia.
  - intros [H _]. congruence.
Qed.
Example C74_save : exists taken, saves_mo_to (disk 20) ex_file SErr taken /\ length taken = 20%nat.
Proof.
  destruct (saves_mo_exist ex_file) as [out So]. exists (firstn 20 out).
  assert (L : (20 < length out)%nat).
  { destruct So as (l & _ & ->). pose proof (mo_bytes_len l) as L. unfold len in L. change offset_o with 75%N in L. lia. }
  split; [exists out; split; [exact So|]|apply firstn_length_le; lia].
  unfold write_to, disk. destruct out as [|c out]; [cbn [length] in L; lia|].
  destruct (Z.of_nat (length (c :: out)) <=? 20) eqn:Q; [apply Z.leb_le in Q; lia|].
  destruct (Z.max 0 20 >? Z.of_nat (length (c :: out))) eqn:Q2; [apply Z.gtb_lt in Q2; lia|reflexivity].
Qed.
(** the hypotheses of C74_po and C74_mo: a save into a disk with room succeeds *)
Example C74_full : exists written po mo, honest written /\ saves_po_to (fun _ => false) written ex_file SNil po /\ saves_mo_to written ex_file SNil mo
  /\ filed ex_file /\ f_entries ex_file <> [].
Proof.
  destruct (proj1 (saves_exist (fun _ => false) ex_file)) as [po So]. destruct (saves_mo_exist ex_file) as [mo Sm].
  set (wr := fun b : bytes => (Z.of_nat (length b), false)). assert (F : faultless wr) by (intros b; reflexivity).
  exists wr, po, mo. split; [|split; [|split; [|split]]].
  - intros b n e [= <- <-]. lia.
  - exists po. split; [exact So|exact (write_to_faultless wr po F)].
  - exists mo. split; [exact Sm|exact (write_to_faultless wr mo F)].
  - apply C29_case.
  - discriminate.
Qed.
