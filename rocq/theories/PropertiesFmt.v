(** Formatting properties C14-C16. *)
From Verif Require Import GoStr GoStrFacts GoFmt FmtSpec GoFmtFacts FormatFacts FmtTextSpec FmtTextFacts SliceModel SliceFacts.
From Coq Require Import Lia ZifyBool ZifyNat ZifyN.
Local Open Scope Z_scope.

(** an instance for the examples: every argument is shown as "?" *)
Definition ex_print (d : spec) (v : arg nat) : bytes := B "?".
Definition ex_int (v : arg nat) : option Z := match v with VInt z => Some z | _ => None end.
Definition ex_extra (vs : list (arg nat)) : bytes := B "...".

(** ** C14 *)
Theorem C14_identity : forall (A : Type) (print : spec -> arg A -> bytes) as_int extra s,
  format_f print as_int extra s [] = s.
Proof. reflexivity. Qed.
(** (on slices: any slice of length 0, whatever its capacity, and nothing is written) *)
Theorem C14_identity_slices : forall (A : Type) (print : spec -> arg A -> bytes) as_int extra room h s args,
  sl_len args = 0%nat -> format_heap print as_int extra room h s args = (s, h).
Proof. intros A print as_int extra room h s args H. unfold format_heap. rewrite H. reflexivity. Qed.
Example C14_case : format_f ex_print ex_int ex_extra (B "100% of %d %s %!") [] = B "100% of %d %s %!".
Proof. reflexivity. Qed.
Print Assumptions C14_identity.
Print Assumptions C14_identity_slices.

(** ** C15 *)
(** For every well-formed format whose directives have their arguments, Format
    writes what the directives mean, and nothing else ...
    Partial: the format is complete (does not end inside a directive), every
    argument referred to exists, fewer than a million arguments. *)
Theorem C15_directives_partial : forall (A : Type) (print : spec -> arg A -> bytes) as_int extra ps args o k,
  pieces_ok ps -> args <> [] -> Z.of_nat (length args) < 1000000 -> all_means as_int args ps 0 o k ->
  format_f print as_int extra (format_text ps) args = render print extra o.
Proof. exact @format_means. Qed.
(** ... which is what Sprintf writes, without its marker for surplus arguments. *)
Theorem C15_sprintf_partial : forall (A : Type) (print : spec -> arg A -> bytes) as_int extra ps args o k,
  pieces_ok ps -> all_means as_int args ps 0 o k ->
  sprintf print as_int extra (format_text ps) args =
  render print extra o ++ (if any_named ps || Nat.leb (length args) k then [] else render print extra [CExtra (skipn k args)]).
Proof. exact @sprintf_means. Qed.
(** No marker for surplus arguments, also when arguments are missing. *)
Theorem C15_no_marker_partial : forall (A : Type) (print : spec -> arg A -> bytes) as_int extra ps args,
  pieces_ok ps -> args <> [] -> Z.of_nat (length args) < 1000000 ->
  exists o, format_f print as_int extra (format_text ps) args = render print extra o /\ forall vs, ~ In (CExtra vs) o.
Proof. exact @format_no_extra. Qed.
(** The texts, also when arguments are missing, an index points nowhere or a star has no
    number: those of Sprintf with an empty string behind the arguments.
    Partial: the format is complete, numbers in it are at most a million, fewer
    than a million arguments. *)
Theorem C15_text_partial : forall (A : Type) (print : spec -> arg A -> bytes) as_int extra ps args t,
  pieces_ok ps -> args <> [] -> Z.of_nat (length args) < 1000000 ->
  ((exists k, writes print as_int (args ++ [VStr []]) ps 0 t k) <-> format_f print as_int extra (format_text ps) args = t).
Proof.
  intros A print as_int extra ps args t Ok Ne L. destruct (format_writes print as_int extra ps args Ok Ne L) as [k W]. split.
  - intros [k' W']. exact (proj1 (writes_unique _ _ extra _ _ _ _ _ _ _ W W')).
  - intros <-. exists k. exact W.
Qed.
Theorem C15_sprintf_text_partial : forall (A : Type) (print : spec -> arg A -> bytes) as_int extra ps args t k,
  pieces_ok ps -> writes print as_int args ps 0 t k ->
  sprintf print as_int extra (format_text ps) args = t ++ (if any_named ps || Nat.leb (length args) k then [] else B "%!(EXTRA " ++ extra (skipn k args) ++ B ")").
Proof.
  intros A print as_int extra ps args t k Ok W. destruct (sprintf_writes print as_int extra ps args Ok) as (t' & k' & W' & ->).
  destruct (writes_unique _ _ extra _ _ _ _ _ _ _ W W') as [<- <-]. reflexivity.
Qed.
(** A format whose last directive has no verb: the appended directive closes it
    as a per cent sign, the rest of it becomes text, and the marker appears
    unless an argument was chosen by its index or all are used. *)
Theorem C15_unclosed : forall (A : Type) (print : spec -> arg A -> bytes) as_int extra ps d args,
  pieces_ok ps -> dir_ok d -> d_verb d = B "%" -> args <> [] ->
  exists t k, writes print as_int (args ++ [VStr []]) (ps ++ [PDir d]) 0 t k
    /\ format_f print as_int extra (format_text ps ++ open_text d) args =
         t ++ B "[" ++ dec_Z (Z.of_nat (length args) + 1) ++ B "]s" ++
         (if any_named (ps ++ [PDir d]) || Nat.leb (length args + 1) k then []
          else B "%!(EXTRA " ++ extra (skipn k (args ++ [VStr []])) ++ B ")").
Proof.
  intros A print as_int extra ps d args Ok Okd V Ne.
  destruct (sprintf_writes print as_int extra (ps ++ [PDir d]) (args ++ [VStr []])) as (t & k & W & _); [apply pieces_ok_snoc; assumption|].
  exists t, k. split; [exact W|]. apply format_open; assumption.
Qed.
(** "%s costs %-3" with one argument and with two *)
Example C15_unclosed_case :
  let s := PDir {| d_flags := []; d_wid := WNone; d_prec := PNone; d_ix := None; d_verb := B "s" |} in
  let d := {| d_flags := B "-"; d_wid := WNum 3; d_prec := PNone; d_ix := None; d_verb := B "%" |} in
  format_text [s; PText (B " costs ")] ++ open_text d = B "%s costs %-3"
  /\ pieces_ok [s; PText (B " costs ")] /\ dir_ok d
  /\ format_f ex_print ex_int ex_extra (B "%s costs %-3") [VStr (B "x")] = B "x costs %[2]s%!(EXTRA ...)"
  /\ format_f ex_print ex_int ex_extra (B "%[1]s costs %-3") [VStr (B "x"); VInt 5] = B "x costs %[3]s".
Proof.
  assert (V : forall c, (code c < 128)%N -> forallb (fun x => negb (Ascii.eqb c x)) (B "#+- 0123456789*.[") = true -> verb_ok [c]).
  { intros c H F. left. exists c. split; [reflexivity|]. split; [exact H|]. intros I. rewrite forallb_forall in F. apply F in I.
    rewrite Ascii.eqb_refl in I. discriminate. }
  split; [reflexivity|]. split; [|split; [|split; vm_compute; reflexivity]].
  - cbn. repeat split; auto; try discriminate; try (apply V; reflexivity); try (intros c []).
    intros I; repeat (destruct I as [I|I]; [discriminate|]); exact I.
  - repeat split; try (apply V; reflexivity); try discriminate.
    intros c [<-|[]]. cbn. tauto.
Qed.
(** The full claim is false: after a trailing per cent sign the appended
    directive becomes text, and the marker appears ... *)
Theorem C15_trailing_percent_refuted :
  format_f ex_print ex_int ex_extra (B "100%") [VInt 1] = B "100%[2]s%!(EXTRA ...)".
Proof. vm_compute. reflexivity. Qed.
(** ... and when an argument is missing, the appended empty string is taken for
    it (Sprintf reports a missing argument instead). *)
Theorem C15_missing_refuted :
  printf_chunks ex_int (B "%d %d" ++ B "%[2]s") [VInt 1; VStr []]
  = Some [CArg (plain 100) (VInt 1); CText (B " "); CArg (plain 100) (VStr []); CArg (plain 115) (VStr [])]
  /\ printf_chunks ex_int (B "%d %d") [VInt 1] = Some [CArg (plain 100) (VInt 1); CText (B " "); CMissing 100].
Proof. split; vm_compute; reflexivity. Qed.
(** "%[2]*d items, %%%s" with three arguments *)
Definition ex_pieces : list piece :=
  [PDir {| d_flags := B "-"; d_wid := WStar (Some 2%positive); d_prec := PNum (B "03"); d_ix := Some 1%positive; d_verb := B "d" |};
   PText (B " items, ");
   PDir {| d_flags := []; d_wid := WNone; d_prec := PNone; d_ix := None; d_verb := B "%" |};
   PDir {| d_flags := []; d_wid := WNum 12; d_prec := PNone; d_ix := None; d_verb := B "v" |}].
Example C15_case : format_text ex_pieces = B "%-[2]*.03[1]d items, %%%12v" /\ pieces_ok ex_pieces
  /\ all_means ex_int [VInt 7; VInt 5; VStr (B "x")] ex_pieces 0
       [CArg {| sp_flags := B "-"; sp_wid := Some 5; sp_prec := Some 3; sp_verb := 100 |} (VInt 7); CText (B " items, "); CPercent;
        CArg {| sp_flags := []; sp_wid := Some 12; sp_prec := None; sp_verb := 118 |} (VInt 5)] 2.
Proof.
  split; [reflexivity|]. split.
  - assert (V : forall c, (code c < 128)%N -> forallb (fun x => negb (Ascii.eqb c x)) (B "#+- 0123456789*.[") = true -> verb_ok [c]).
    { intros c H F. left. exists c. split; [reflexivity|]. split; [exact H|]. intros I. rewrite forallb_forall in F. apply F in I.
      rewrite Ascii.eqb_refl in I. discriminate. }
    cbn. repeat split; auto; try discriminate; try (apply V; reflexivity); try (intros p [= <-]; unfold small; lia);
      try (unfold small; lia).
    + intros c [<-|[]]. cbn. tauto.
    + exists 3%N. repeat split; try discriminate; unfold small; lia.
    + intros I. cbn in I. repeat (destruct I as [I|I]; [discriminate|]). exact I.
    + intros ? [].
    + intros ? [].
  - apply (M_dir _ _ _ _ 0 [CArg {| sp_flags := B "-"; sp_wid := Some 5; sp_prec := Some 3; sp_verb := 100 |} (VInt 7)] 1).
    + apply (M_arg ex_int [VInt 7; VInt 5; VStr (B "x")]
        {| d_flags := B "-"; d_wid := WStar (Some 2%positive); d_prec := PNum (B "03"); d_ix := Some 1%positive; d_verb := B "d" |}
        0 [] (Some 5) 2 [] (Some 3) 2 (VInt 7)); [discriminate| | |reflexivity].
      * apply (M_wstar ex_int _ (Some 2%positive) 0 (VInt 5) 5); reflexivity.
      * apply (M_pnum ex_int _ (B "03") 3). reflexivity.
    + apply M_text. apply (M_dir _ _ _ _ 1 [CPercent] 1).
      * apply (M_percent ex_int _ {| d_flags := []; d_wid := WNone; d_prec := PNone; d_ix := None; d_verb := B "%" |} 1 [] None 1 [] None 1);
          [reflexivity|constructor|constructor|right; reflexivity].
      * apply (M_dir _ _ _ _ 1 [CArg {| sp_flags := []; sp_wid := Some 12; sp_prec := None; sp_verb := 118 |} (VInt 5)] 2); [|constructor].
        apply (M_arg ex_int _ {| d_flags := []; d_wid := WNum 12; d_prec := PNone; d_ix := None; d_verb := B "v" |} 1 [] (Some 12) 1 [] None 1 (VInt 5));
          [discriminate|constructor|constructor|reflexivity].
Qed.
Print Assumptions C15_directives_partial.
Print Assumptions C15_sprintf_partial.
Print Assumptions C15_no_marker_partial.
(** "%[5]d|%*s|%.*d|%d%d" with three arguments *)
Definition ex_faulty : list piece :=
  [PDir {| d_flags := []; d_wid := WNone; d_prec := PNone; d_ix := Some 5%positive; d_verb := B "d" |}; PText (B "|");
   PDir {| d_flags := []; d_wid := WStar None; d_prec := PNone; d_ix := None; d_verb := B "s" |}; PText (B "|");
   PDir {| d_flags := []; d_wid := WNone; d_prec := PStar None; d_ix := None; d_verb := B "%" |}; PText (B "|");
   PDir {| d_flags := []; d_wid := WNone; d_prec := PNone; d_ix := None; d_verb := B "d" |};
   PDir {| d_flags := []; d_wid := WNone; d_prec := PNone; d_ix := None; d_verb := B "d" |}].
Example C15_text_case : format_text ex_faulty = B "%[5]d|%*s|%.*%|%d%d" /\ pieces_ok ex_faulty
  /\ format_f ex_print ex_int ex_extra (format_text ex_faulty) [VStr (B "x"); VStr (B "y"); VInt (-1)]
     = B "%!d(BADINDEX)|%!(BADWIDTH)y|%!(BADPREC)%|" ++ ex_print (plain 100) (VStr []) ++ B "%!d(MISSING)".
Proof.
  split; [reflexivity|]. split; [|vm_compute; reflexivity].
  assert (V : forall c, (code c < 128)%N -> forallb (fun x => negb (Ascii.eqb c x)) (B "#+- 0123456789*.[") = true -> verb_ok [c]).
  { intros c H F. left. exists c. split; [reflexivity|]. split; [exact H|]. intros I. rewrite forallb_forall in F. apply F in I.
    rewrite Ascii.eqb_refl in I. discriminate. }
  cbn. repeat split; auto; try discriminate; try (apply V; reflexivity); try (intros p [= <-]; unfold small; lia); try (intros c []);
    try (intros I; repeat (destruct I as [I|I]; [discriminate|]); exact I).
Qed.
Print Assumptions C15_text_partial.
Print Assumptions C15_sprintf_text_partial.
Print Assumptions C15_unclosed.
Print Assumptions C15_trailing_percent_refuted.
Print Assumptions C15_missing_refuted.

(** ** C16 *)
(** The caller's elements are unchanged, every other array is unchanged, and of
    the caller's array at most the one element behind the slice is written ... *)
Theorem C16_elements_partial : forall (A : Type) (print : spec -> arg A -> bytes) as_int extra room h s args,
  slice_ok h args ->
  let h' := snd (format_heap print as_int extra room h s args) in
  elems h' args = elems h args
  /\ (forall k, k <> sl_arr args -> (k < length h)%nat -> nth_error h' k = nth_error h k)
  /\ (forall a i, nth_error h (sl_arr args) = Some a -> exists a', nth_error h' (sl_arr args) = Some a'
        /\ (i <> sl_off args + sl_len args \/ sl_len args = sl_cap args -> nth_error a' i = nth_error a i)%nat).
Proof.
  intros A print as_int extra room h s args Ok. unfold format_heap.
  destruct (Nat.eqb_spec (sl_len args) 0) as [E|E]; cbn [snd].
  - repeat split; auto. intros a i Ha. exists a. auto.
  - pose proof (append1_spec room h args (VStr []) Ok) as S. destruct (append1 room h args (VStr [])) as [h' args'].
    cbn [snd]. destruct S as (_ & S2 & S3 & S4 & _). split; [exact S2|]. split; [exact S3|].
    intros a i Ha. destruct (S4 a i Ha) as (a' & E' & _ & H). eauto.
Qed.
(** ... nothing at all if the slice is full, as the one Go builds for a list of
    arguments is ... *)
Theorem C16_full_slices_partial : forall (A : Type) (print : spec -> arg A -> bytes) as_int extra room h s args k,
  slice_ok h args -> sl_len args = sl_cap args -> (k < length h)%nat ->
  nth_error (snd (format_heap print as_int extra room h s args)) k = nth_error h k.
Proof.
  intros A print as_int extra room h s args k Ok F Hk. unfold format_heap.
  destruct (Nat.eqb_spec (sl_len args) 0) as [E|E]; [reflexivity|].
  unfold append1. destruct (Nat.ltb_spec (sl_len args) (sl_cap args)); [lia|]. cbn [snd]. apply nth_error_app1, Hk.
Qed.
(** ... and the element behind a slice with room is overwritten: the full claim
    is false. *)
Theorem C16_spare_capacity_refuted : forall (A : Type) (print : spec -> arg A -> bytes) as_int extra room h s args,
  slice_ok h args -> sl_len args <> 0%nat -> (sl_len args < sl_cap args)%nat ->
  exists a', nth_error (snd (format_heap print as_int extra room h s args)) (sl_arr args) = Some a'
    /\ nth_error a' (sl_off args + sl_len args) = Some (VStr []).
Proof.
  intros A print as_int extra room h s args Ok Ne L. unfold format_heap.
  destruct (Nat.eqb_spec (sl_len args) 0) as [E|E]; [contradiction|].
  pose proof (append1_spec room h args (VStr []) Ok) as S. destruct (append1 room h args (VStr [])) as [h' args'].
  cbn [snd]. destruct S as (_ & _ & _ & _ & S5). apply S5, L.
Qed.
Lemma nth_error_ext {X} : forall l l' : list X, (forall i, nth_error l i = nth_error l' i) -> l = l'.
Proof.
  induction l as [|x l IH]; intros [|y l'] H; [reflexivity|discriminate (H 0%nat)..|].
  pose proof (H 0%nat) as E. injection E as ->. f_equal. apply IH. intros i. exact (H (S i)).
Qed.
(** Exactly: nothing the caller can reach changes if and only if there is no
    argument, or the slice is full, or an empty string is behind it already. *)
Theorem C16_exactly : forall (A : Type) (print : spec -> arg A -> bytes) as_int extra room h s args,
  slice_ok h args ->
  ((forall k, (k < length h)%nat -> nth_error (snd (format_heap print as_int extra room h s args)) k = nth_error h k)
   <-> sl_len args = 0%nat \/ sl_len args = sl_cap args
       \/ exists a, nth_error h (sl_arr args) = Some a /\ nth_error a (sl_off args + sl_len args) = Some (VStr [])).
Proof.
  intros A print as_int extra room h s args Ok. assert (La : (sl_arr args < length h)%nat).
  { destruct Ok as (_ & a & E & _). apply nth_error_Some. congruence. }
  split.
  - intros H. destruct (Nat.eq_dec (sl_len args) 0) as [E|E]; [left; exact E|right].
    destruct (Nat.eq_dec (sl_len args) (sl_cap args)) as [F|F]; [left; exact F|right].
    assert (L : (sl_len args < sl_cap args)%nat) by (destruct Ok; lia).
    destruct (C16_spare_capacity_refuted A print as_int extra room h s args Ok E L) as (a' & Ea & Ev).
    rewrite (H _ La) in Ea. eauto.
  - intros C k Hk. destruct C as [E|[F|(a & Ea & Ev)]].
    + unfold format_heap. rewrite E. reflexivity.
    + apply C16_full_slices_partial; assumption.
    + destruct (Nat.eq_dec (sl_len args) 0) as [E|E]; [unfold format_heap; rewrite E; reflexivity|].
      destruct (Nat.eq_dec (sl_len args) (sl_cap args)) as [F|F]; [apply C16_full_slices_partial; assumption|].
      destruct (C16_elements_partial A print as_int extra room h s args Ok) as (_ & Ho & Ha). cbn zeta in *.
      destruct (Nat.eq_dec k (sl_arr args)) as [->|N]; [|apply Ho; assumption].
      assert (L : (sl_len args < sl_cap args)%nat) by (destruct Ok; lia).
      destruct (C16_spare_capacity_refuted A print as_int extra room h s args Ok E L) as (a' & Ea' & Ev').
      rewrite Ea', Ea. f_equal. apply nth_error_ext. intros i.
      destruct (Nat.eq_dec i (sl_off args + sl_len args)) as [->|Ni]; [congruence|].
      destruct (Ha a i Ea) as (a2 & Ea2 & H). assert (a2 = a') by congruence. subst a2. apply H. left. exact Ni.
Qed.
(** The slice version computes what [format_f] computes. *)
Theorem C16_same_text : forall (A : Type) (print : spec -> arg A -> bytes) as_int extra room h s args,
  slice_ok h args ->
  fst (format_heap print as_int extra room h s args) = format_f print as_int extra s (elems h args).
Proof.
  intros A print as_int extra room h s args Ok. unfold format_heap, format_f.
  pose proof (elems_length h args Ok) as L.
  destruct (Nat.eqb_spec (sl_len args) 0) as [E|E].
  - destruct (elems h args); [reflexivity|cbn in L; lia].
  - pose proof (append1_spec room h args (VStr []) Ok) as S. destruct (append1 room h args (VStr [])) as [h' args'].
    cbn [fst]. destruct S as (S1 & _). rewrite S1. destruct (elems h args) as [|v vs] eqn:Ev; [cbn in L; lia|].
    rewrite <- L. reflexivity.
Qed.
Example C16_case :
  let h := [[VInt 1; VInt 2; VInt 3] : list (arg nat)] in
  let args := {| sl_arr := 0; sl_off := 0; sl_len := 2; sl_cap := 3 |} in
  slice_ok h args
  /\ snd (format_heap ex_print ex_int ex_extra [] h (B "%d") args) = [[VInt 1; VInt 2; VStr []]].
Proof. split; [split; [cbn; lia|eexists; split; [reflexivity|cbn; lia]]|vm_compute; reflexivity]. Qed.
Print Assumptions C16_elements_partial.
Print Assumptions C16_full_slices_partial.
Print Assumptions C16_spare_capacity_refuted.
Print Assumptions C16_same_text.
Print Assumptions C16_exactly.
