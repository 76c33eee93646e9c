(** C15 for every byte string as format: what Format writes is what fmt.Sprintf
    writes, without its marker for surplus arguments. *)
From Verif Require Import GoStr GoStrFacts GoFmt FmtSpec GoFmtFacts FormatFacts MarkFacts AnySpec AnyFacts.
From Coq Require Import Lia ZifyBool ZifyNat ZifyN.
Local Open Scope Z_scope.

Lemma no_marker_clean (A : Type) (b : list (chunk A)) e : clean b -> (e = [] \/ exists vs, e = [CExtra vs]) -> no_marker (b ++ e) = b.
Proof.
  intros C H. unfold no_marker. rewrite filter_app. replace (filter _ e) with (@nil (chunk A)) by (destruct H as [->|[vs ->]]; reflexivity).
  rewrite app_nil_r. induction b as [|c b IH]; [reflexivity|]. cbn [filter].
  rewrite IH by (intros vs I; apply (C vs); right; exact I). destruct c; try reflexivity. destruct (C vs). left. reflexivity.
Qed.
(** Whatever the format, if its brackets are closed and every directive has its
    verb: Format writes what the scan of the format writes when it is given the
    arguments and the empty string, the marker left out. *)
Theorem C15_any : forall (A : Type) (print : spec -> arg A -> bytes) as_int extra s args o,
  args <> [] -> Z.of_nat (length args) < 1000000 -> closes s ->
  printf_chunks as_int s (args ++ [VStr []]) = Some o -> ~ In CNoVerb o ->
  format_f print as_int extra s args = render print extra (no_marker o).
Proof.
  intros A print as_int extra s args o Ne L C E V.
  assert (R := appended_loop as_int args Ne L). set (e := B "%[" ++ dec_Z (Z.of_nat (length args) + 1) ++ B "]s") in *.
  change e with ("%"%char :: "["%char :: (dec_Z (Z.of_nat (length args) + 1) ++ B "]s")) in R.
  destruct (loop_app _ as_int (args ++ [VStr []]) [nothing] R _ _ _ _ C E V) as (body & en & -> & Cb & En & g & Hg).
  rewrite (no_marker_clean _ _ _ Cb En).
  unfold format_f. destruct args as [|a args]; [congruence|]. cbv zeta. rewrite suffix_text. fold e. unfold sprintf, printf_chunks.
  destruct (loop_ends as_int ((a :: args) ++ [VStr []]) (S (length (s ++ e)) + 1) {| s_arg := 0; s_good := true; s_reord := false |} (s ++ e)) as [o2 E2]; [lia|].
  rewrite E2. pose proof (loop_more _ _ _ _ _ _ E2 g) as E3. pose proof (loop_more _ _ _ _ _ _ Hg (S (length (s ++ e)) + 1)) as E4.
  rewrite Nat.add_comm in E4. change (s ++ "%"%char :: "["%char :: dec_Z (Z.of_nat (length (a :: args)) + 1) ++ B "]s") with (s ++ e) in E4.
  rewrite E3 in E4. injection E4 as ->. rewrite render_app.
  unfold render at 2. cbn [map concat show nothing]. unfold print_arg. cbn [sp_flags sp_wid sp_prec sp_verb]. apply app_nil_r.
Qed.
(** A format that fmt.Sprintf has no complaint about, be it of surplus
    arguments, gets from Format the text of fmt.Sprintf without the marker. *)
Theorem C15_faultless : forall (A : Type) (print : spec -> arg A -> bytes) as_int extra s args o,
  args <> [] -> Z.of_nat (length args) < 1000000 -> closes s -> ~ names s (N.of_nat (length args) + 1) ->
  printf_chunks as_int s args = Some o -> (forall c, In c o -> ~ complains c) ->
  sprintf print as_int extra s args = render print extra o
  /\ format_f print as_int extra s args = render print extra (no_marker o).
Proof.
  intros A print as_int extra s args o Ne L C N E F. split; [unfold sprintf; rewrite E; reflexivity|].
  destruct (loop_wide as_int args (VStr []) _ _ _ _ (conj C N) E F) as (o' & E' & <- & V).
  exact (C15_any A print as_int extra s args o' Ne L C E' V).
Qed.
(** Both conditions on brackets are needed: of "%[%" and of "%[3]%%d" fmt.Sprintf
    makes a per cent sign and the number, Format makes complaints. *)
Theorem C15_brackets_refuted :
  let int := fun v : arg nat => match v with VInt z => Some z | _ => None end in
  exists s t,
    printf_chunks int s [VInt 1] = Some [CPercent] /\ ~ closes s
    /\ format_f (fun _ _ => B "?") int (fun _ => []) s [VInt 1] = B "%!s(BADINDEX)"
    /\ printf_chunks int t [VInt 1; VInt 2] = Some [CPercent; CArg {| sp_flags := []; sp_wid := None; sp_prec := None; sp_verb := 100 |} (VInt 1)]
    /\ names t 3
    /\ format_f (fun _ _ => B "?") int (fun _ => []) t [VInt 1; VInt 2] = B "%?"
    /\ sprintf (fun _ _ => B "?") int (fun _ => []) t [VInt 1; VInt 2] = B "%1".
Proof.
  cbv zeta. exists (B "%[%"), (B "%[3]%%d"). split; [vm_compute; reflexivity|]. split.
  { intros C. destruct (C [] [] (B "%") eq_refl IN_nil) as [[I|[]] _]. discriminate I. }
  split; [vm_compute; reflexivity|]. split; [vm_compute; reflexivity|]. split.
  { exists [], [], (B "3"), (B "%%d"). split; [reflexivity|]. split; [constructor|]. split; [intros [I|[]]; discriminate I|reflexivity]. }
  split; vm_compute; reflexivity.
Qed.
(** "[%d] %q!" and "%[2]d ok", each with an argument too many: both are closed and
    name no argument that is not there; the surplus is not marked *)
Example C15_any_case :
  let int := fun v : arg nat => match v with VInt z => Some z | _ => None end in
  let sp := fun v => {| sp_flags := []; sp_wid := None; sp_prec := None; sp_verb := v |} in
  let args := [VInt 1; VStr (B "a"); VInt 3] in
  (closes (B "[%d] %q!") /\ ~ names (B "[%d] %q!") 4
  /\ printf_chunks int (B "[%d] %q!") args =
     Some [CText (B "["); CArg (sp 100%N) (VInt 1); CText (B "] "); CArg (sp 113%N) (VStr (B "a")); CText (B "!"); CExtra [VInt 3]]
  /\ format_f (fun _ _ => B "?") int (fun _ => B "x") (B "[%d] %q!") args = B "[1] ?!")
  /\ closes (B "%[2]d ok") /\ ~ names (B "%[2]d ok") 4
  /\ printf_chunks int (B "%[2]d ok") args = Some [CArg (sp 100%N) (VStr (B "a")); CText (B " ok")].
Proof.
  cbv zeta.
  assert (P : forall (l : bytes) a c t, l = a ++ c :: t -> exists k, nth_error l k = Some c /\ t = skipn (S k) l).
  { intros l a c t ->. exists (length a). split; [rewrite nth_error_app2, Nat.sub_diag by lia; reflexivity|]. rewrite skipn_app, skipn_all2 by lia.
    replace (S (length a) - length a)%nat with 1%nat by lia. reflexivity. }
  assert (Hd : forall m c b u, inside m -> m ++ c :: b = u -> match u with x :: _ => x = c \/ In x (B "#+- 0123456789.*[") | [] => False end).
  { intros m c b u I <-. destruct I as [|x m I H|i m I H]; cbn [app]; [left; reflexivity| |right; cbn; tauto].
    right. change (B "#+- 0123456789.*[") with (B "#+- 0123456789.*" ++ B "["). apply in_or_app. left. exact I. }
  assert (Q : forall k, nth_error (B "[%d] %q!") k = Some "%"%char -> k = 1%nat \/ k = 5%nat).
  { intros k. do 9 (destruct k as [|k]; [cbn; intros E; try discriminate E; auto|]). destruct k; discriminate. }
  assert (X : forall a m b, B "[%d] %q!" = a ++ "%"%char :: m ++ "["%char :: b -> inside m -> False).
  { intros a m b E I. destruct (P _ _ _ _ E) as (k & Ek & Et). pose proof (Hd m "["%char b _ I Et) as H.
    destruct (Q k Ek) as [-> | ->]; cbn in H; destruct H as [H|H]; try discriminate H; repeat (destruct H as [H|H]; [discriminate H|]); destruct H. }
  assert (Y : forall a m b, B "%[2]d ok" = a ++ "%"%char :: m ++ "["%char :: b -> b = B "2]d ok").
  { intros a m b E. change (a ++ "%"%char :: m ++ "["%char :: b) with (a ++ ("%"%char :: m) ++ "["%char :: b) in E. rewrite app_assoc in E.
    destruct (P _ _ _ _ E) as (k & Ek & ->). do 8 (destruct k as [|k]; [try discriminate Ek; reflexivity|]). destruct k; discriminate Ek. }
  split; [split; [|split; [|split; vm_compute; reflexivity]]|split; [|split; [|vm_compute; reflexivity]]].
  - intros a m b E I. destruct (X a m b E I).
  - intros (a & m & i & b & E & I & _). exact (X a m _ E I).
  - intros a m b E I. rewrite (Y a m b E). cbn. split; [tauto|lia].
  - intros (a & m & i & b & E & I & Ni & V). apply Y in E. destruct i as [|c [|d i]]; [discriminate E| |].
    + injection E as -> _. discriminate V.
    + injection E as _ -> _. apply Ni. right. left. reflexivity.
Qed.
Print Assumptions C15_any.
Print Assumptions C15_faultless.
Print Assumptions C15_brackets_refuted.
