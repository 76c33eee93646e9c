(** Property C97: arguments that goroutines share. *)
From Coq Require Import Lia ZArith.
From Verif Require Import GoStr GoMap FileModel TransModel GoFmt SliceModel SliceFacts ArgsModel ArgsSpec ArgsFacts.
Local Open Scope nat_scope.

(** every translation function formats exactly one text, which its arguments do
    not influence, with the arguments it was given: what follows is about that call *)
Theorem C97_one_format : forall A s h c i i2 n, (forall u, the_tor s h <> TUser u) ->
  (exists m, forall (fmt : bytes -> list A -> bytes) args, h_x fmt s h c i args = fmt m args)
  /\ ((exists m, forall (fmt : bytes -> list A -> bytes) args, fst (h_xn64 fmt s h c i i2 n args) = XStr (fmt m args))
      \/ forall (fmt : bytes -> list A -> bytes) args, fst (h_xn64 fmt s h c i i2 n args) = XPanic).
Proof.
  intros A s h c i i2 n NU. unfold h_x, h_xn64. set (t := the_tor s h) in *.
  assert (Dp : exists m, forall (fmt : bytes -> list A -> bytes) args, default_plural fmt i i2 n args = fmt m args).
  { unfold default_plural. destruct (is_empty i2); [exists i; reflexivity|]. destruct (negb (n =? 1)%Z); eexists; intros; reflexivity. }
  destruct Dp as (d & Dp). destruct t as [|a|u]; cbn [tor_x tor_xn]; [| |exfalso; exact (NU u eq_refl)].
  - split; [exists i; reflexivity|]. left. exists d. intros. cbn [fst]. rewrite Dp. reflexivity.
  - split.
    + unfold f_x. destruct (mget (key c i) (f_entries (the_file s a))) as [e|]; [|exists i; reflexivity].
      destruct (is_empty (e_str e)); eexists; intros; reflexivity.
    + unfold f_xn64. destruct (mget (key c i) (f_entries (the_file s a))) as [e|].
      2:{ left. exists d. intros. cbn [fst]. rewrite Dp. reflexivity. }
      destruct (is_empty (e_id2 e) && match e_strn e with [] => true | _ => false end).
      { left. destruct (negb (is_empty (e_str e))); eexists; intros; reflexivity. }
      destruct (f_plural (init_plural (the_file s a))) as [p|]; [|right; intros; reflexivity].
      destruct (p_total p <=? 0)%Z. { left. exists d. intros. cbn [fst]. rewrite Dp. reflexivity. }
      cbv zeta. destruct (_ || _ || _)%bool. { left. exists d. intros. cbn [fst]. rewrite Dp. reflexivity. }
      destruct (nth_error (e_strn e) (Z.to_nat (plural_fn p n))) as [t'|]; [|right; intros; reflexivity].
      destruct (is_empty t'). { left. exists d. intros. cbn [fst]. rewrite Dp. reflexivity. }
      left. exists t'. intros. reflexivity.
Qed.
Print Assumptions C97_one_format.

(** Goroutines that format with slices of arguments, and read and change
    variables in between: if no element that one of them changes - the element
    behind a slice with room counts as changed - is used by another one, then in
    every interleaving nobody waits, nobody races, each one gets the answers it gets
    alone, and elements nobody changes are as before. *)
Theorem C97_apart_partial : forall A (print : spec -> arg A -> bytes) as_int extra h gs h' ps,
  Forall (Forall (within h)) gs -> apart gs ->
  asteps (h, map (fun os => run_aops print as_int extra os []) gs) (h', ps) ->
  (forall j os rs, nth_error gs j = Some os -> nth_error ps j = Some (ARet rs) -> rs = alone (format_f print as_int extra) h os)
  /\ ~ arg_race ps
  /\ (forall j p, nth_error ps j = Some p -> (exists rs, p = ARet rs) \/ exists h'' p', astep h' p = Some (h'', p'))
  /\ (forall p, (forall os o, In os gs -> In o os -> ~ changes o p) -> cell_at h' p = cell_at h p).
Proof.
  intros A print as_int extra h gs h' ps Win Ap St.
  set (F := fun (i : nat) (x : cell) => exists os o, nth_error gs i = Some os /\ In o os /\ (looks o x \/ changes o x)).
  set (W := fun (i : nat) (x : cell) => exists os o, nth_error gs i = Some os /\ In o os /\ changes o x).
  assert (Dis : forall i j x, i <> j -> W i x -> ~ F j x /\ ~ W j x).
  { intros i j x N (os & o & Ei & Io & Co).
    split; intros (os' & o' & Ej & Io' & Co'); destruct (Ap i j os os' o o' x N Ei Ej Io Io' Co); tauto. }
  pose proof (good_start print as_int extra h gs Win) as G0. fold F W in G0.
  pose proof (good_steps F W _ _ _ Dis St G0) as G.
  split; [|split; [exact (good_no_race F W _ _ Dis G)|split]].
  - intros j os rs Ej Ep. destruct G as [_ G]. cbn [fst snd] in G.
    specialize (G j _ (alone (format_f print as_int extra) h os) Ep). rewrite nth_error_map, Ej in G. specialize (G eq_refl).
    inversion G. reflexivity.
  - intros j p Ep. exact (good_goes_on F W _ h' ps j p G Ep).
  - intros p N. apply (good_frame F W _ _ _ p Dis St G0). intros j (os & o & Ej & Io & Co).
    apply (N os o); [apply nth_error_In with j, Ej|exact Io|exact Co].
Qed.
Print Assumptions C97_apart_partial.

(** Slices without room - those the compiler makes for arguments listed in the
    call among them - and calls without arguments may be shared by any number of
    goroutines. *)
Theorem C97_full_partial : forall A (print : spec -> arg A -> bytes) as_int extra h (gs : list (list (bytes * slice))) h' ps,
  Forall (Forall (fun c => slice_ok h (snd c) /\ (sl_len (snd c) = 0 \/ sl_len (snd c) = sl_cap (snd c)))) gs ->
  asteps (h, map (fun cs => run_aops print as_int extra (map (fun c => OFormat (fst c) (snd c)) cs) []) gs) (h', ps) ->
  (forall j cs rs, nth_error gs j = Some cs -> nth_error ps j = Some (ARet rs) ->
     rs = map (fun c => NText (format_f print as_int extra (fst c) (elems h (snd c)))) cs)
  /\ ~ arg_race ps /\ h' = h.
Proof.
  intros A print as_int extra h gs h' ps Ok St.
  set (calls := map (fun c : bytes * slice => @OFormat A (fst c) (snd c))).
  assert (NC : forall os o p, In os (map calls gs) -> In o os -> ~ changes o p).
  { intros os o p Ios Io. apply in_map_iff in Ios. destruct Ios as (cs & <- & Ics). apply in_map_iff in Io. destruct Io as (c & <- & Ic).
    rewrite Forall_forall in Ok. specialize (Ok _ Ics). rewrite Forall_forall in Ok. destruct (Ok _ Ic) as [(L & _) H].
    cbn [changes]. intros [B _]. lia. }
  assert (Win : Forall (Forall (within h)) (map calls gs)).
  { apply Forall_map, Forall_forall. intros cs Ics. apply Forall_map, Forall_forall. intros c Ic. cbn [within].
    rewrite Forall_forall in Ok. specialize (Ok _ Ics). rewrite Forall_forall in Ok. apply (Ok _ Ic). }
  rewrite <- (map_map calls (fun os => run_aops print as_int extra os [])) in St.
  assert (Ap : apart (map calls gs)).
  { intros i j os os' o o' p N Ei Ej Io Io' Co. exfalso. exact (NC os o p (nth_error_In _ _ Ei) Io Co). }
  destruct (C97_apart_partial A print as_int extra h _ h' ps Win Ap St) as (Ans & NR & _ & _).
  split; [|split; [exact NR|]].
  - intros j cs rs Ej Ep. rewrite (Ans j (calls cs) rs) by (try exact Ep; rewrite nth_error_map, Ej; reflexivity).
    rewrite Forall_forall in Ok. specialize (Ok _ (nth_error_In _ _ Ej)). clear - Ok. induction Ok as [|c cs [_ Hc] _ IH]; [reflexivity|].
    cbn [calls map alone] in *. f_equal. unfold behind.
    replace (Nat.ltb 0 (sl_len (snd c)) && Nat.ltb (sl_len (snd c)) (sl_cap (snd c)))%bool with false; [exact IH|].
    symmetry. apply Bool.andb_false_iff. destruct Hc as [Hc|Hc]; [left|right]; apply Nat.ltb_ge; lia.
  - (* no goroutine writes at all *)
    set (W := fun (i : nat) (x : cell) => exists os o, nth_error (map calls gs) i = Some os /\ In o os /\ changes o x).
    set (F := fun (i : nat) (x : cell) => exists os o, nth_error (map calls gs) i = Some os /\ In o os /\ (looks o x \/ changes o x)).
    pose proof (good_start print as_int extra h _ Win) as G0. fold F W in G0.
    assert (Dis : forall i j x, i <> j -> W i x -> ~ F j x /\ ~ W j x).
    { intros i j x N (os & o & Ei & Io & Co). exfalso. exact (NC os o x (nth_error_In _ _ Ei) Io Co). }
    assert (NW : forall j x, ~ W j x) by (intros j x (os & o & Ej & Io & Co); exact (NC os o x (nth_error_In _ _ Ej) Io Co)).
    change h with (fst (h, map (fun os => run_aops print as_int extra os []) (map calls gs))).
    change h' with (fst (h', ps)).
    clear - St G0 Dis NW. remember (h, map (fun os => run_aops print as_int extra os []) (map calls gs)) as c0 eqn:E0. clear E0.
    remember (h', ps) as c1 eqn:E1. clear E1.
    induction St as [c|c h0 a p b h1 p' St IH S1]; [reflexivity|]. cbn [fst] in *.
    rewrite <- (IH G0). pose proof (good_steps F W _ _ _ Dis St G0) as [L G]. cbn [fst snd] in L, G.
    assert (La : length a < length (map (alone (format_f print as_int extra) h) (map calls gs))) by (rewrite <- L, app_length; cbn [length]; lia).
    destruct (nth_error (map (alone (format_f print as_int extra) h) (map calls gs)) (length a)) as [ra|] eqn:Ea; [|apply nth_error_None in Ea; lia].
    pose proof (G _ _ _ (nth_app_mid a b p) Ea) as Da.
    inversion Da as [hh r0 X1 X2|hh c1 k v r0 Fc Ec D X1 X2|hh c1 v k r0 Wc Nc D X1 X2]; subst; cbn [astep] in S1; [discriminate| |].
    + rewrite Ec in S1. injection S1 as <- <-. reflexivity.
    + exfalso. exact (NW _ _ Wc).
Qed.
Print Assumptions C97_full_partial.

(** The claim without the condition is false: two goroutines that pass the same
    slice with room, or one of which passes a full slice containing the element
    behind the slice of the other one, race. *)
Lemma read_some {A R} (h : heap (arg A)) arr a (k : list (arg A) -> aprog R) (g : list (aprog R)) : nth_error h arr = Some a ->
  forall m i n acc c, m < n -> i + n <= length a -> asteps c (h, g ++ [read_from arr i n acc k]) ->
  exists acc', asteps c (h, g ++ [read_from arr (i + m) (n - m) acc' k]).
Proof.
  intros E. induction m as [|m IH]; intros i n acc c Lm La St.
  - exists acc. rewrite Nat.add_0_r, Nat.sub_0_r. exact St.
  - destruct n as [|n]; [lia|]. cbn [read_from] in St. destruct (nth_error a i) as [v|] eqn:Ev; [|apply nth_error_None in Ev; lia].
    destruct (IH (S i) n (v :: acc) c) as (acc' & H); [lia|lia| |].
    + apply (AS_step _ h g _ [] h _ St). cbn [astep]. unfold cell_at. cbn [fst snd]. rewrite E, Ev. reflexivity.
    + exists acc'. replace (i + S m) with (S i + m) by lia. replace (S n - S m) with (n - m) by lia. exact H.
Qed.
Theorem C97_races_refuted : forall A (print : spec -> arg A -> bytes) as_int extra h f f' s s',
  slice_ok h s -> slice_ok h s' -> sl_arr s = sl_arr s' -> 0 < sl_len s < sl_cap s ->
  (0 < sl_len s' < sl_cap s' /\ sl_off s + sl_len s = sl_off s' + sl_len s'
   \/ sl_len s' = sl_cap s' /\ sl_off s' <= sl_off s + sl_len s < sl_off s' + sl_len s') ->
  exists h' ps, asteps (h, map (fun os => run_aops print as_int extra os []) [[OFormat f s]; [OFormat f' s']]) (h', ps) /\ arg_race ps.
Proof.
  intros A print as_int extra h f f' s s' Ok Ok' Ea Room Cf. cbn [map run_aops].
  unfold format_c. destruct (Nat.eqb_spec (sl_len s) 0) as [B|_]; [lia|]. destruct (Nat.ltb_spec (sl_len s) (sl_cap s)) as [_|B]; [|lia].
  destruct (Nat.eqb_spec (sl_len s') 0) as [B|_]; [lia|]. cbv zeta.
  destruct Cf as [[R' Es]|[Fu El]].
  - destruct (Nat.ltb_spec (sl_len s') (sl_cap s')) as [_|B]; [|lia]. eexists _, _. split; [apply AS_refl|].
    exists 0, 1. eexists _, _, (sl_arr s, sl_off s + sl_len s). split; [discriminate|]. split; [reflexivity|]. split; [reflexivity|].
    cbn [writes_cell uses_cell]. split; [reflexivity|]. rewrite Ea, Es. reflexivity.
  - destruct (Nat.ltb_spec (sl_len s') (sl_cap s')) as [B|_]; [lia|]. destruct Ok' as (L & a & E & La).
    set (m := sl_off s + sl_len s - sl_off s').
    pose proof (fun g kk c => @read_some A (list (@aans A)) h (sl_arr s') a kk g E m (sl_off s') (sl_len s') [] c ltac:(lia) ltac:(lia)) as RS.
    match goal with |- exists h' ps, asteps (h, [?w; read_from _ _ _ _ ?kk]) _ /\ _ => destruct (RS [w] kk _ (AS_refl _)) as (acc' & St) end.
    eexists _, _. split; [exact St|]. exists 0, 1. eexists _, _, (sl_arr s, sl_off s + sl_len s).
    split; [discriminate|]. split; [reflexivity|]. split; [reflexivity|]. cbn [writes_cell]. split; [reflexivity|].
    replace (sl_len s' - m) with (S (sl_len s' - m - 1)) by lia. cbn [read_from uses_cell]. rewrite Ea. f_equal. lia.
Qed.
Print Assumptions C97_races_refuted.

(** ... and an answer may come out wrong although nobody changes the arguments: one
    goroutine translates with the first of two elements, the other one assigns
    to the second. *)
Definition a_print (d : spec) (v : arg nat) : bytes := B "?".
Definition a_int (v : arg nat) : option Z := match v with VInt z => Some z | _ => None end.
Definition a_extra (vs : list (arg nat)) : bytes := B "...".
Definition two_args : heap (arg nat) := [[VInt 1; VInt 2]].
Definition first_arg : slice := {| sl_arr := 0; sl_off := 0; sl_len := 1; sl_cap := 2 |}.
(* a schedule: which goroutine makes the next step *)
Fixpoint asched {R} (is : list nat) (c : heap (arg nat) * list (@aprog nat R)) : option (heap (arg nat) * list (@aprog nat R)) :=
  match is with
  | [] => Some c
  | i :: is =>
      match nth_error (snd c) i with
      | Some p => match astep (fst c) p with
                  | Some (h', p') => asched is (h', firstn i (snd c) ++ p' :: skipn (S i) (snd c))
                  | None => None
                  end
      | None => None
      end
  end.
Lemma nth_cut {T} (l : list T) i x : nth_error l i = Some x -> l = firstn i l ++ x :: skipn (S i) l.
Proof.
  revert l. induction i as [|i IH]; intros [|y l] E; try discriminate; cbn [nth_error] in E.
  - injection E as ->. reflexivity.
  - cbn [firstn skipn app]. f_equal. apply IH, E.
Qed.
Lemma asched_steps {R} is : forall c (c1 : heap (arg nat) * list (@aprog nat R)) c2, asteps c c1 -> asched is c1 = Some c2 -> asteps c c2.
Proof.
  induction is as [|i is IH]; intros c [h ps] c2 St E; cbn [asched fst snd] in E.
  - injection E as <-. exact St.
  - destruct (nth_error ps i) as [p|] eqn:Ep; [|discriminate]. destruct (astep h p) as [[h' p']|] eqn:Es; [|discriminate].
    apply (IH c _ c2) in E; [exact E|]. rewrite (nth_cut ps i p Ep) in St. exact (AS_step _ _ _ _ _ _ _ St Es).
Qed.
Theorem C97_foreign_refuted : exists h',
  asteps (two_args, map (fun os => run_aops a_print a_int a_extra os []) [[OFormat (B "%d file") first_arg]; [OSet (0, 1) (VInt 7)]])
    (h', [ARet [NText (B "1 file?")]; ARet [NDone]])
  /\ alone (format_f a_print a_int a_extra) two_args [OFormat (B "%d file") first_arg] = [NText (B "1 file")].
Proof.
  exists [[VInt 1; VInt 7]]. split; [|vm_compute; reflexivity].
  apply (asched_steps [0; 1; 0; 0] _ _ _ (AS_refl _)). vm_compute. reflexivity.
Qed.
Print Assumptions C97_foreign_refuted.

(** two goroutines that share a full slice, and one that formats with a slice
    with room of an array of its own *)
Example C97_case :
  let h : heap (arg nat) := [[VInt 1; VInt 2]; [VInt 3; VInt 4]] in
  let full := {| sl_arr := 0; sl_off := 0; sl_len := 2; sl_cap := 2 |} in
  let room := {| sl_arr := 1; sl_off := 0; sl_len := 1; sl_cap := 2 |} in
  let gs := [[OFormat (B "%d %d") full; OGet (0, 1)]; [OFormat (B "%[2]d") full]; [OFormat (B "%d") room; OSet (1, 0) (VInt 5); OGet (1, 1)]] in
  Forall (Forall (within h)) gs /\ apart gs
  /\ map (alone (format_f a_print a_int a_extra) h) gs
     = [[NText (B "1 2"); NVal (VInt 2)]; [NText (B "2")]; [NText (B "3"); NDone; NVal (VStr [])]].
Proof.
  cbv zeta. split; [|split; [|vm_compute; reflexivity]].
  - repeat (constructor; [repeat (constructor; [cbn [within]; first [discriminate|split; [cbn; lia|eexists; split; [reflexivity|cbn; lia]]]|]); constructor|]). constructor.
  - (* the array of the third goroutine is its own, and the others change nothing *)
    assert (Q : forall i os (o : @aop nat) p, nth_error [[OFormat (B "%d %d") {| sl_arr := 0; sl_off := 0; sl_len := 2; sl_cap := 2 |}; OGet (0, 1)];
        [OFormat (B "%[2]d") {| sl_arr := 0; sl_off := 0; sl_len := 2; sl_cap := 2 |}];
        [OFormat (B "%d") {| sl_arr := 1; sl_off := 0; sl_len := 1; sl_cap := 2 |}; OSet (1, 0) (VInt 5); OGet (1, 1)]] i = Some os -> In o os ->
        (changes o p -> i = 2) /\ (looks o p \/ changes o p -> fst p = if Nat.eqb i 2 then 1 else 0)).
    { intros i os o p E I. destruct i as [|[|[|i]]]; cbn [nth_error] in E; [| | |destruct i; discriminate]; injection E as <-; cbn [In] in I.
      - destruct I as [<-|[<-|[]]]; cbn [looks changes sl_len sl_cap sl_arr sl_off fst snd Nat.eqb]; (split; [intros X; exfalso; lia|]).
        + intros [[X _]|[X _]]; [exact X|lia].
        + intros [->|[]]. reflexivity.
      - destruct I as [<-|[]]; cbn [looks changes sl_len sl_cap sl_arr sl_off fst snd Nat.eqb]; (split; [intros X; exfalso; lia|]).
        intros [[X _]|[X _]]; [exact X|lia].
      - split; [reflexivity|]. destruct I as [<-|[<-|[<-|[]]]]; cbn [looks changes sl_len sl_cap sl_arr sl_off fst snd Nat.eqb].
        + intros [[X _]|[_ ->]]; [exact X|reflexivity].
        + intros [[]| ->]. reflexivity.
        + intros [->|[]]. reflexivity. }
    intros i j os os' o o' p N Ei Ej Io Io' Co. destruct (Q i os o p Ei Io) as [Q1 Q2]. destruct (Q j os' o' p Ej Io') as [Q3 Q4].
    specialize (Q1 Co). specialize (Q2 (or_intror Co)). subst i. cbn [Nat.eqb] in Q2.
    assert (Nj : Nat.eqb j 2 = false) by (apply Nat.eqb_neq; auto). rewrite Nj in Q4.
    split; intros X; [specialize (Q4 (or_introl X))|specialize (Q4 (or_intror X))]; lia.
Qed.
(** slices as C97_races_refuted speaks of: the first of three elements, and two of them *)
Example C97_races_case :
  let h : heap (arg nat) := [[VInt 1; VInt 2; VInt 3]] in
  let one := {| sl_arr := 0; sl_off := 0; sl_len := 1; sl_cap := 3 |} in
  let last := {| sl_arr := 0; sl_off := 1; sl_len := 2; sl_cap := 2 |} in
  slice_ok h one /\ slice_ok h last /\ 0 < sl_len one < sl_cap one
  /\ (sl_len last = sl_cap last /\ sl_off last <= sl_off one + sl_len one < sl_off last + sl_len last)
  /\ alone (format_f a_print a_int a_extra) h [OFormat (B "%d") one; OFormat (B "%d %d") last] = [NText (B "1"); NText (B "? 3")].
Proof.
  cbv zeta. split; [split; [cbn; lia|eexists; split; [reflexivity|cbn; lia]]|].
  split; [split; [cbn; lia|eexists; split; [reflexivity|cbn; lia]]|]. split; [cbn; lia|]. split; [cbn; lia|]. vm_compute. reflexivity.
Qed.
