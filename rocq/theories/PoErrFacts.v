(** Facts about the errors of the .po reader. *)
From Coq Require Import Lia.
From Verif Require Import BlankSpec GoStr GoStrFacts TrimFacts GoQuote GoFmt GoMap GoMapFacts FileModel FileFacts PoModel PoReadFacts LitSpec LitFacts
  BlankFacts ErrModel ErrSpec ErrFacts PoErrModel PoErrSpec.
Local Open Scope Z_scope.

Section PE.
Context {A : Type}.
Variable print : spec -> arg (val A) -> bytes.
Variable as_int : arg (val A) -> option Z.
Variable extra : list (arg (val A)) -> bytes.
Variables empty_po invalid_entry eof syntax : err.
Variable next : nat.
Notation line_error := (line_error print as_int extra invalid_entry syntax next).
Notation read_entry_e := (read_entry_e print as_int extra invalid_entry syntax next).
Notation read_loop_e := (read_loop_e print as_int extra invalid_entry eof syntax next).
Notation read_po_e := (read_po_e print as_int extra empty_po invalid_entry eof syntax next).

Definition failing (pot : bool) (f : file) (x : err) : pores_e :=
  if pot then EPanic else if Is true (Some x) (Some eof) then EOk f else EFail x.
(** the reader as one pass over the lines; [no] is the number of the first *)
Fixpoint mach_e (pot : bool) (no : Z) (f : file) (s : pstate) (e : entry) (lines : list bytes) : pores_e :=
  match lines with
  | [] => EOk (addif pot f e)
  | l :: r =>
      match line_action s e l with
      | ANext s' e' => mach_e pot (no + 1) f s' e' r
      | AUnget =>
          match line_action SNone zero_entry l with
          | ANext s' e' => mach_e pot (no + 1) (addif pot f e) s' e' r
          | AUnget => EFuel
          | AErr => failing pot (addif pot f e) (line_error no SNone zero_entry l)
          | APanic => EPanic
          end
      | AErr => failing pot f (line_error no s e l)
      | APanic => EPanic
      end
  end.
Definition ahead (r : reader) (ls : list bytes) : Prop :=
  -1 <= r_no r /\ ls = skipn (Z.to_nat (r_no r + 1)) (r_lines r).
Lemma skipn_cons {X} (l : X) ls : forall k all, l :: ls = skipn k all -> nth_error all k = Some l /\ ls = skipn (S k) all.
Proof.
  induction k as [|k IH]; intros [|y all] H; try discriminate.
  - cbn in H. injection H as <- <-. auto.
  - cbn [skipn] in H. destruct (IH all H) as [H1 H2]. split; [exact H1|]. rewrite H2. reflexivity.
Qed.
Lemma next_eof r : ahead r [] -> fst (next_line r) = LEof.
Proof.
  intros [H1 H2]. unfold next_line, current_line. cbn [fst r_no r_lines].
  replace (r_no r + 1 <? 0) with false by lia.
  destruct (nth_error _ _) eqn:E; [|reflexivity]. exfalso.
  assert (L : nth_error (r_lines r) (Z.to_nat (r_no r + 1)) <> None) by congruence. apply nth_error_Some in L.
  assert (Z0 : length (skipn (Z.to_nat (r_no r + 1)) (r_lines r)) = 0%nat) by (rewrite <- H2; reflexivity).
  rewrite skipn_length in Z0. lia.
Qed.
Lemma next_some r l ls : ahead r (l :: ls) ->
  let r' := {| r_lines := r_lines r; r_no := r_no r + 1 |} in next_line r = (LLine l, r') /\ ahead r' ls /\ unget_line r' = r.
Proof.
  intros [H1 H2] r'. destruct (skipn_cons _ _ _ _ H2) as [N Sk]. split; [|split].
  - unfold next_line, current_line. cbn [r_no r_lines]. replace (r_no r + 1 <? 0) with false by lia. rewrite N. reflexivity.
  - unfold r'. split; cbn [r_no r_lines]; [lia|]. rewrite Sk. f_equal. lia.
  - unfold unget_line, r'. cbn [r_no r_lines]. replace (r_no r + 1 <? 0) with false by lia.
    replace (r_no r + 1 - 1) with (r_no r) by lia. destruct r; reflexivity.
Qed.
Lemma ahead_length r l ls : ahead r (l :: ls) -> (length ls < length (r_lines r))%nat.
Proof.
  intros [_ H]. assert (L : length (l :: ls) = length (skipn (Z.to_nat (r_no r + 1)) (r_lines r))) by (rewrite H; reflexivity).
  rewrite skipn_length in L. cbn [length] in L. lia.
Qed.
Lemma read_loop_mach_e pot : forall ls fuel n f s e r, ahead r ls -> (length ls < fuel)%nat -> (length ls <= n)%nat ->
  match read_entry_e fuel s e r with
  | XEof e' => if Is true (Some eof) (Some eof) then EOk (addif pot f e') else EFail eof
  | XNext e' r' => read_loop_e n pot (addif pot f e') r'
  | XErr x => failing pot f x
  | XPanic => EPanic
  | XFuel => EFuel
  end = mach_e pot (r_no r + 1) f s e ls.
Proof.
  assert (Self : Is true (Some eof) (Some eof) = true).
  { destruct eof as [i m me ks]. cbn. rewrite Nat.eqb_refl. reflexivity. }
  induction ls as [|l ls IH]; intros fuel n f s e r Ah Hf Hn; cbn [length] in *.
  - destruct fuel as [|fuel]; [lia|]. cbn [read_entry_e].
    pose proof (next_eof r Ah) as E. destruct (next_line r) as [lr r']. cbn [fst] in E. subst lr. cbn [mach_e].
    rewrite Self. reflexivity.
  - destruct fuel as [|fuel]; [lia|]. cbn [read_entry_e].
    destruct (next_some r l ls Ah) as (Nx & Ah' & Un). rewrite Nx. cbn [mach_e r_no].
    destruct (line_action s e l) as [s' e'| | |] eqn:Ac; try reflexivity.
    + rewrite (IH fuel n f s' e'); [reflexivity|exact Ah'|lia|lia].
    + rewrite Un. destruct n as [|n]; [lia|]. cbn [PoErrModel.read_loop_e PoErrModel.read_entry_e].
      rewrite Nx. pose proof (no_unget zero_entry l) as NU. cbn [r_no].
      destruct (line_action SNone zero_entry l) as [s' e'| | |] eqn:Ac0; try reflexivity; [|congruence].
      change (r_no r + 1 + 1) with (r_no {| r_lines := r_lines r; r_no := r_no r + 1 |} + 1).
      rewrite <- (IH (length (r_lines r)) n (addif pot f e) s' e'); [reflexivity|exact Ah'|apply (ahead_length _ _ _ Ah)|lia].
Qed.
Theorem read_po_mach_e pot content : content <> [] ->
  read_po_e pot content = mach_e pot 0 new_file SNone zero_entry (po_lines_of content).
Proof.
  intros H. destruct content as [|c t]; [congruence|]. unfold PoErrModel.read_po_e. cbv zeta.
  set (ls := po_lines_of (c :: t)).
  change 0 with (r_no (new_reader ls) + 1).
  rewrite <- (read_loop_mach_e pot ls (S (length ls)) (length ls)); [reflexivity|split; [cbn; lia|reflexivity]|lia..].
Qed.
(** the plain reader is this one without the error values *)
Definition bare (r : pores_e) : pores := match r with EOk f => PoOk f | EFail _ => PoErr | EPanic => PoPanic | EFuel => PoFuel end.
Hypothesis ST : settings print empty_po invalid_entry eof syntax next.

Definition grown (msg msg' : bytes) (kids : list err) : err :=
  Err (S next) (B "invalid entry: " ++ msg) (fun _ => false) [invalid_entry; Err next msg' (fun _ => false) kids].
Lemma invalid_eq msg kids :
  invalid print as_int extra invalid_entry next (Err next msg (fun _ => false) kids) = grown msg msg kids.
Proof.
  unfold invalid, WithSecondaryError, errorf, boxed, grown.
  change (printf_chunks as_int (B "%w: %w") [VOther (VErr invalid_entry); VOther (VErr (Err next msg (fun _ => false) kids))])
    with (Some (A := list (chunk (val A))) [CArg (plain 119) (VOther (VErr invalid_entry)); CText (B ": "); CArg (plain 119) (VOther (VErr (Err next msg (fun _ => false) kids)))]).
  cbv beta iota. f_equal. unfold render. cbn [map concat show]. unfold print_arg. cbn [plain sp_flags sp_wid sp_prec].
  rewrite !(s_print _ _ _ _ _ _ ST). destruct (s_invalid _ _ _ _ _ _ ST) as [j ->]. cbn [e_msg]. rewrite app_nil_r. reflexivity.
Qed.
Definition failed_text (field : bytes) (no : Z) (l : bytes) : bytes :=
  B "unquote " ++ field ++ B " failed|line " ++ dec_Z no ++ B ": " ++ l ++ B ": invalid syntax".
Ltac text_of :=
  cbv beta iota; f_equal; unfold render; cbn [map concat show]; unfold print_arg;
  cbn [plain sp_flags sp_wid sp_prec sp_verb N.eqb Pos.eqb];
  rewrite ?(s_print _ _ _ _ _ _ ST).
Lemma unquote_failed_eq k no l : In k keywords ->
  unquote_failed print as_int extra invalid_entry syntax next k no l = grown (failed_text k no l) (failed_text k no l) [syntax].
Proof.
  intros K. unfold unquote_failed. rewrite <- invalid_eq. f_equal. unfold Wrapf, errorf, boxed.
  assert (E : printf_chunks as_int ((B "unquote " ++ k ++ B " failed|line %d: %s") ++ B ": %w") ([VInt no; VStr l] ++ [VOther (VErr syntax)])
    = Some (A := list (chunk (val A))) [CText (B "unquote " ++ k ++ B " failed|line "); CArg (plain 100) (VInt no); CText (B ": "); CArg (plain 115) (VStr l);
            CText (B ": "); CArg (plain 119) (VOther (VErr syntax))]).
  { destruct K as [<-|[<-|[<-|[<-|[]]]]]; reflexivity. }
  rewrite E. text_of. destruct (s_syntax _ _ _ _ _ _ ST) as [j ->]. cbn [e_msg]. unfold failed_text.
  rewrite app_nil_r, <- !app_assoc. reflexivity.
Qed.
Lemma unquote_failed_s_eq k no l :
  unquote_failed_s print as_int extra invalid_entry syntax next k no l = grown (failed_text k no l) (failed_text k no l) [syntax].
Proof.
  unfold unquote_failed_s. rewrite <- invalid_eq. f_equal. unfold Wrapf, errorf, boxed.
  change (printf_chunks as_int ((B "unquote %s failed|line %d: %s") ++ B ": %w") ([VStr k; VInt no; VStr l] ++ [VOther (VErr syntax)]))
    with (Some (A := list (chunk (val A))) [CText (B "unquote "); CArg (plain 115) (VStr k); CText (B " failed|line "); CArg (plain 100) (VInt no); CText (B ": "); CArg (plain 115) (VStr l);
            CText (B ": "); CArg (plain 119) (VOther (VErr syntax))]).
  text_of. destruct (s_syntax _ _ _ _ _ _ ST) as [j ->]. cbn [e_msg]. unfold failed_text.
  rewrite app_nil_r, <- ?app_assoc. reflexivity.
Qed.
Lemma unexpected_eq no l : let m := B "unexpected line " ++ dec_Z no ++ B ": " ++ l in
  unexpected print as_int extra invalid_entry next no l = grown m m [].
Proof.
  intros m. unfold unexpected. rewrite <- invalid_eq. f_equal. unfold Errorf, errorf.
  change (printf_chunks as_int (B "unexpected line %d: %s") [VInt no; VStr l])
    with (Some (A := list (chunk (val A))) [CText (B "unexpected line "); CArg (plain 100) (VInt no); CText (B ": "); CArg (plain 115) (VStr l)]).
  text_of. unfold m. rewrite app_nil_r. reflexivity.
Qed.

Lemma dec_Z_N no : 0 <= no -> dec_Z no = dec (Z.to_N no).
Proof. destruct no; intros H; [reflexivity|reflexivity|lia]. Qed.
Lemma unquote_not_string l p r : l = p ++ r -> remove_prefix_unquote l p = None -> not_string r.
Proof.
  intros -> H q t T L. unfold remove_prefix_unquote in H. rewrite trim_prefix_app in H.
  apply trim_trims in T. rewrite T in H. apply unquote_literal in L. congruence.
Qed.
Lemma no_prefix p l : has_prefix p l = false -> forall r, l <> p ++ r.
Proof. intros H r ->. rewrite has_prefix_app in H. discriminate. Qed.
Lemma on_data_err l p k : (forall d, k d <> AErr) -> on_data l p k = AErr -> remove_prefix_unquote l p = None.
Proof. unfold on_data. destruct (remove_prefix_unquote l p) as [d|]; [|reflexivity]. intros H E. destruct (H d E). Qed.
Theorem line_error_says no s e l g : 0 <= no -> line_action s e l = AErr -> (has_prefix [DQ] l = true -> g = state_text s) ->
  exists m b, complaint (Z.to_N no) g l m b /\ line_error no s e l = grown m m (if b then [syntax] else []).
Proof.
  intros H0 H Hg. unfold line_action in H.
  destruct (is_empty (trim_space l)) eqn:Bl; [discriminate|].
  destruct (has_prefix P_cmt l) eqn:P0; [destruct (negb _) in H; discriminate|].
  unfold PoErrModel.line_error.
  destruct (has_prefix P_ctxt l) eqn:P1.
  { destruct (negb _) in H; [discriminate|]. apply on_data_err in H; [|discriminate].
    apply has_prefix_iff in P1 as [r E]. exists (failed_text (B "msgctxt") no l), true.
    split; [|apply unquote_failed_eq; left; reflexivity].
    unfold failed_text. rewrite dec_Z_N by exact H0. apply (CP_field _ _ _ (B "msgctxt") r); [left; reflexivity|exact E|].
    apply (unquote_not_string l P_ctxt); assumption. }
  destruct (has_prefix P_id2 l) eqn:P2.
  { destruct (equals_any _ _) in H; [discriminate|]. apply on_data_err in H; [|discriminate].
    apply has_prefix_iff in P2 as [r E]. exists (failed_text (B "msgid_plural") no l), true.
    split; [|apply unquote_failed_eq; right; left; reflexivity].
    unfold failed_text. rewrite dec_Z_N by exact H0. apply (CP_field _ _ _ (B "msgid_plural") r); [right; left; reflexivity|exact E|].
    apply (unquote_not_string l P_id2); assumption. }
  destruct (has_prefix P_id l) eqn:P3.
  { destruct (equals_any _ _) in H; [discriminate|]. apply on_data_err in H; [|discriminate].
    apply has_prefix_iff in P3 as [r E]. exists (failed_text (B "msgid") no l), true.
    split; [|apply unquote_failed_eq; right; right; left; reflexivity].
    unfold failed_text. rewrite dec_Z_N by exact H0. apply (CP_field _ _ _ (B "msgid") r); [right; right; left; reflexivity|exact E|].
    apply (unquote_not_string l P_id); assumption. }
  destruct (has_prefix (P_strn _) l) eqn:P4.
  { destruct (equals_any _ _) in H; [discriminate|]. apply on_data_err in H; [|discriminate].
    apply has_prefix_iff in P4 as [r E]. set (i := N.of_nat (length (e_strn e))).
    exists (failed_text (P_strn (length (e_strn e))) no l), true. split; [|apply unquote_failed_s_eq].
    assert (X : failed_text (P_strn (length (e_strn e))) no l
      = B "unquote msgstr[" ++ dec i ++ B "]  failed|line " ++ dec (Z.to_N no) ++ B ": " ++ l ++ B ": invalid syntax").
    { unfold failed_text, P_strn, K_strn. fold i. rewrite dec_Z_N by exact H0. rewrite <- !app_assoc. reflexivity. }
    rewrite X. apply (CP_form _ _ _ i r).
    - rewrite E. unfold P_strn, K_strn. fold i. rewrite <- !app_assoc. reflexivity.
    - apply (unquote_not_string l (P_strn (length (e_strn e)))); assumption. }
  destruct (has_prefix P_str l) eqn:P5.
  { destruct (equals_any _ _) in H; [discriminate|]. apply on_data_err in H; [|discriminate].
    apply has_prefix_iff in P5 as [r E]. exists (failed_text (B "msgstr") no l), true.
    split; [|apply unquote_failed_eq; right; right; right; left; reflexivity].
    unfold failed_text. rewrite dec_Z_N by exact H0. apply (CP_field _ _ _ (B "msgstr") r); [right; right; right; left; reflexivity|exact E|].
    apply (unquote_not_string l P_str); assumption. }
  destruct (has_prefix [DQ] l) eqn:P6.
  { apply on_data_err in H.
    2:{ intros d. destruct s; try discriminate. destruct (app_strn e d); discriminate. }
    specialize (Hg eq_refl). subst g. apply has_prefix_iff in P6 as [r E]. exists (failed_text (state_text s) no l), true.
    split; [|apply unquote_failed_s_eq].
    unfold failed_text. rewrite dec_Z_N by exact H0. apply CP_more; [exists r; exact E|apply (unquote_not_string l []); [reflexivity|exact H]]. }
  eexists _, false. split; [|apply unexpected_eq]. rewrite dec_Z_N by exact H0. apply CP_other.
  - intros X. apply trim_nil in X. rewrite X in Bl. discriminate.
  - apply (no_prefix P_cmt), P0.
  - apply (no_prefix [DQ]), P6.
  - intros k r K. destruct K as [<-|[<-|[<-|[<-|[]]]]].
    + apply (no_prefix P_ctxt), P1.
    + apply (no_prefix P_id2), P2.
    + apply (no_prefix P_id), P3.
    + apply (no_prefix P_str), P5.
Qed.

Lemma grown_not_eof m b : Is true (Some (grown m m (if b : bool then [syntax] else []))) (Some eof) = false.
Proof.
  destruct (s_invalid _ _ _ _ _ _ ST) as [i Ei]. destruct (s_syntax _ _ _ _ _ _ ST) as [k Ek].
  destruct (s_eof _ _ _ _ _ _ ST) as [j Ej]. pose proof (s_differ _ _ _ _ _ _ ST) as D.
  pose proof (s_older _ _ _ _ _ _ ST eof) as O. cbn [In] in O. specialize (O (or_intror (or_intror (or_introl eq_refl)))).
  rewrite Ej in *. rewrite Ei, Ek in D. cbn [map e_ident] in D, O.
  apply NoDup_cons_iff in D as [N1 D]. apply NoDup_cons_iff in D as [N2 D]. apply NoDup_cons_iff in D as [N3 D].
  assert (X1 : i <> j) by (intros ->; apply N2; left; reflexivity).
  assert (X2 : k <> j) by (intros ->; apply N3; left; reflexivity).
  unfold grown. rewrite Ei. cbn [Is is_ e_ident existsb andb].
  rewrite (proj2 (Nat.eqb_neq (S next) j)) by lia. rewrite (proj2 (Nat.eqb_neq i j)) by lia. rewrite (proj2 (Nat.eqb_neq next j)) by lia.
  destruct b; cbn [is_ existsb andb orb]; [|reflexivity]. rewrite ?Ek. cbn [is_ existsb andb orb]. rewrite (proj2 (Nat.eqb_neq k j)) by lia. reflexivity.
Qed.
Lemma failing_says no s e l f : 0 <= no -> line_action s e l = AErr -> failing false f (line_error no s e l) = EFail (line_error no s e l).
Proof.
  intros H0 H. destruct (line_error_says no s e l _ H0 H (fun _ => eq_refl)) as (m & b & _ & ->). unfold failing. rewrite grown_not_eof. reflexivity.
Qed.

(** ** The two readers agree *)
Lemma mach_bare pot : forall ls no f s e, 0 <= no -> bare (mach_e pot no f s e ls) = mach pot f s e ls.
Proof.
  induction ls as [|l ls IH]; intros no f s e H0; [reflexivity|]. cbn [mach_e mach].
  destruct (line_action s e l) as [s' e'| | |] eqn:E; [apply IH; lia| | |reflexivity].
  - destruct (line_action SNone zero_entry l) as [s' e'| | |] eqn:E'; [apply IH; lia|reflexivity| |reflexivity].
    destruct pot; [reflexivity|]. rewrite (failing_says no _ _ _ _ H0 E'). reflexivity.
  - destruct pot; [reflexivity|]. rewrite (failing_says no _ _ _ _ H0 E). reflexivity.
Qed.
Theorem read_po_bare pot content : bare (read_po_e pot content) = read_po_ pot content.
Proof.
  destruct content as [|c t] eqn:E; [reflexivity|]. rewrite <- E.
  assert (N : content <> []) by (rewrite E; discriminate).
  rewrite read_po_mach_e, read_po_mach by exact N. apply mach_bare. lia.
Qed.

(** the state of the reader and the field the lines are in *)
Lemma field_step s e l s' e' : line_action s e l = ANext s' e' ->
  (s' = s /\ (blanks l \/ exists r, l = DQ :: r)) \/ forall pre, in_field (pre ++ [l]) (state_text s').
Proof.
  intros H. unfold line_action in H.
  destruct (is_empty (trim_space l)) eqn:Bl.
  { injection H as <- _. left. split; [reflexivity|]. left. apply trim_nil. destruct (trim_space l); [reflexivity|discriminate]. }
  destruct (has_prefix P_cmt l) eqn:P0.
  { destruct s; cbn in H; try discriminate. injection H as <- _. right. intros pre. apply has_prefix_iff in P0 as [r ->]. apply IF_comment. }
  assert (D : forall p k, on_data l p k = ANext s' e' -> exists d, k d = ANext s' e').
  { intros p k. unfold on_data. destruct (remove_prefix_unquote l p) as [d|]; [eauto|discriminate]. }
  destruct (has_prefix P_ctxt l) eqn:P1.
  { destruct (negb _) in H; [discriminate|]. apply D in H as [d H]. injection H as <- _. right. intros pre.
    apply has_prefix_iff in P1 as [r ->]. apply (IF_ctxt pre r). }
  destruct (has_prefix P_id2 l) eqn:P2.
  { destruct (equals_any _ _) in H; [discriminate|]. apply D in H as [d H]. injection H as <- _. right. intros pre.
    apply has_prefix_iff in P2 as [r ->]. apply (IF_keyword pre (B "msgid_plural") r). left. reflexivity. }
  destruct (has_prefix P_id l) eqn:P3.
  { destruct (equals_any _ _) in H; [discriminate|]. apply D in H as [d H]. injection H as <- _. right. intros pre.
    apply has_prefix_iff in P3 as [r ->]. apply (IF_keyword pre (B "msgid") r). right. left. reflexivity. }
  destruct (has_prefix (P_strn _) l) eqn:P4.
  { destruct (equals_any _ _) in H; [discriminate|]. apply D in H as [d H]. injection H as <- _. right. intros pre.
    apply has_prefix_iff in P4 as [r ->]. unfold P_strn, K_strn. rewrite <- !app_assoc. apply (IF_form pre). }
  destruct (has_prefix P_str l) eqn:P5.
  { destruct (equals_any _ _) in H; [discriminate|]. apply D in H as [d H]. injection H as <- _. right. intros pre.
    apply has_prefix_iff in P5 as [r ->]. apply (IF_keyword pre (B "msgstr") r). right. right. left. reflexivity. }
  destruct (has_prefix [DQ] l) eqn:P6; [|discriminate]. apply D in H as [d H]. left.
  split; [|right; apply has_prefix_iff in P6 as [r E]; exists r; exact E].
  destruct s; try (injection H as <- _; reflexivity). destruct (app_strn e d); [injection H as <- _; reflexivity|discriminate].
Qed.
Lemma unget_field s e l : line_action s e l = AUnget -> ~ blanks l /\ has_prefix [DQ] l = false.
Proof.
  intros H. unfold line_action in H. destruct (is_empty (trim_space l)) eqn:Bl; [discriminate|].
  split; [intros X; apply trim_nil in X; rewrite X in Bl; discriminate|].
  destruct (has_prefix [DQ] l) eqn:P6; [|reflexivity]. exfalso. apply has_prefix_iff in P6 as [r ->].
  assert (Q : forall p, hd_error p <> Some DQ -> p <> [] -> has_prefix p ([DQ] ++ r) = false).
  { intros p Hp Np. destruct (has_prefix p ([DQ] ++ r)) eqn:X; [|reflexivity]. apply has_prefix_iff in X as [u X].
    destruct p as [|c p]; [contradiction|]. injection X as <- _. destruct Hp. reflexivity. }
  rewrite !Q in H; try discriminate.
  unfold on_data in H. destruct (remove_prefix_unquote _ _) as [d|]; [|discriminate].
  destruct s; try discriminate. destruct (app_strn e d); discriminate.
Qed.

(** ** Where it fails *)
Lemma mach_fails : forall ls no f s e x done, 0 <= no -> in_field done (state_text s) -> mach_e false no f s e ls = EFail x ->
  exists pre l post, ls = pre ++ l :: post
  /\ (exists f', mach_e false no f s e pre = EOk f')
  /\ (forall post', mach_e false no f s e (pre ++ l :: post') = EFail x)
  /\ exists s' e' g, line_action s' e' l = AErr /\ x = line_error (no + Z.of_nat (length pre)) s' e' l
     /\ in_field (done ++ pre) g /\ (has_prefix [DQ] l = true -> g = state_text s').
Proof.
  induction ls as [|l ls IH]; intros no f s e x done H0 HF H; cbn [mach_e] in H; [discriminate|].
  assert (H1 : 0 <= no + 1) by lia.
  destruct (line_action s e l) as [s' e'| | |] eqn:E.
  - assert (HF' : in_field (done ++ [l]) (state_text s')).
    { destruct (field_step _ _ _ _ _ E) as [(-> & C)|C]; [apply IF_more; assumption|apply C]. }
    destruct (IH _ _ _ _ _ _ H1 HF' H) as (pre & m & post & -> & [f' F] & Ev & s2 & e2 & g & Ae & -> & G1 & G2).
    exists (l :: pre), m, post. split; [reflexivity|]. split; [exists f'; cbn [mach_e]; rewrite E; exact F|].
    split; [intros post'; cbn [mach_e app]; rewrite E; apply Ev|]. exists s2, e2, g. split; [exact Ae|].
    split; [f_equal; cbn [length]; lia|]. split; [|exact G2]. rewrite <- app_assoc in G1. exact G1.
  - destruct (unget_field _ _ _ E) as [Nb Nq].
    destruct (line_action SNone zero_entry l) as [s' e'| | |] eqn:E'; try discriminate.
    + assert (HF' : in_field (done ++ [l]) (state_text s')).
      { destruct (field_step _ _ _ _ _ E') as [(-> & [C|[r C]])|C]; [contradiction| |apply C].
        exfalso. rewrite C in Nq. discriminate. }
      destruct (IH _ _ _ _ _ _ H1 HF' H) as (pre & m & post & -> & [f' F] & Ev & s2 & e2 & g & Ae & -> & G1 & G2).
      exists (l :: pre), m, post. split; [reflexivity|]. split; [exists f'; cbn [mach_e]; rewrite E, E'; exact F|].
      split; [intros post'; cbn [mach_e app]; rewrite E, E'; apply Ev|]. exists s2, e2, g. split; [exact Ae|].
      split; [f_equal; cbn [length]; lia|]. split; [|exact G2]. rewrite <- app_assoc in G1. exact G1.
    + exists [], l, ls. rewrite failing_says in H by assumption. injection H as <-. split; [reflexivity|]. split; [eexists; reflexivity|].
      split; [intros post'; cbn [mach_e app]; rewrite E, E'; apply failing_says; assumption|].
      exists SNone, zero_entry, (state_text s). split; [exact E'|]. split; [cbn [length]; f_equal; lia|].
      split; [rewrite app_nil_r; exact HF|congruence].
  - exists [], l, ls. rewrite failing_says in H by assumption. injection H as <-. split; [reflexivity|]. split; [eexists; reflexivity|].
    split; [intros post'; cbn [mach_e app]; rewrite E; apply failing_says; assumption|].
    exists s, e, (state_text s). split; [exact E|]. split; [cbn [length]; f_equal; lia|].
    split; [rewrite app_nil_r; exact HF|reflexivity].
  - discriminate.
Qed.
Lemma has_lines_of content ls : has_lines content ls -> po_lines_of content = ls.
Proof.
  intros (N & I & J). unfold po_lines_of, remove_byte. rewrite <- J. apply split_join; assumption.
Qed.
Lemma lines_of_has content : has_lines content (po_lines_of content).
Proof.
  unfold po_lines_of. split; [apply split_byte_nonempty|]. split; [intros l; apply split_byte_pieces|]. apply join_split.
Qed.
Theorem po_error content x : content <> [] -> read_po_e false content = EFail x ->
  exists pre l post g m b, has_lines content (pre ++ l :: post)
  /\ (forall c, c <> [] -> has_lines c pre -> exists f, read_po_e false c = EOk f)
  /\ (forall c post', has_lines c (pre ++ l :: post') -> c <> [] -> read_po_e false c = EFail x)
  /\ in_field pre g /\ complaint (N.of_nat (length pre)) g l m b
  /\ x = grown m m (if b then [syntax] else []).
Proof.
  intros N H. rewrite read_po_mach_e in H by exact N.
  destruct (mach_fails _ _ _ SNone _ _ [] (Z.le_refl 0) IF_start H) as (pre & l & post & E & [f F] & Ev & s & e & g & Ae & -> & G1 & G2).
  destruct (line_error_says (0 + Z.of_nat (length pre)) s e l g ltac:(lia) Ae G2) as (m & b & Co & Eq).
  exists pre, l, post, g, m, b. split; [rewrite <- E; apply lines_of_has|]. split; [|split; [|split; [exact G1|split]]].
  - intros c Nc Lc. exists f. rewrite read_po_mach_e by exact Nc. rewrite (has_lines_of _ _ Lc). exact F.
  - intros c post' Lc Nc. rewrite read_po_mach_e by exact Nc. rewrite (has_lines_of _ _ Lc). apply Ev.
  - replace (N.of_nat (length pre)) with (Z.to_N (0 + Z.of_nat (length pre))) by lia. exact Co.
  - exact Eq.
Qed.
End PE.

(** the lines are in one field *)
Lemma blanks_head c t : blanks (c :: t) -> c <> "#"%char /\ c <> "m"%char.
Proof.
  intros H. inversion H as [|w s W Bs E]. apply blank1_in in W. vm_compute in W.
  repeat (destruct W as [<-|W]; [injection E as <- _; split; discriminate|]). destruct W.
Qed.
Definition names (l f : bytes) : Prop :=
  (exists r, l = "#"%char :: r /\ f = []) \/ (exists r, l = B "msgctxt" ++ SP :: r /\ f = B "ctxt")
  \/ (exists k r, In k [B "msgid_plural"; B "msgid"; B "msgstr"] /\ l = k ++ SP :: r /\ f = k)
  \/ (exists r, l = B "msgstr[" ++ r /\ f = B "msgstr[]").
Lemma names_head l f : names l f -> ~ (blanks l \/ exists r, l = DQ :: r).
Proof.
  intros H [Bl|[q Q]].
  - destruct H as [(r & -> & _)|[(r & -> & _)|[(k & r & [<-|[<-|[<-|[]]]] & -> & _)|(r & -> & _)]]];
      apply blanks_head in Bl as [X Y]; congruence.
  - destruct H as [(r & -> & _)|[(r & -> & _)|[(k & r & [<-|[<-|[<-|[]]]] & -> & _)|(r & -> & _)]]]; discriminate Q.
Qed.
Lemma names_one l f g : names l f -> names l g -> f = g.
Proof.
  intros [(r & -> & ->)|[(r & -> & ->)|[(k & r & [<-|[<-|[<-|[]]]] & -> & ->)|(r & -> & ->)]]]
    [(r' & E & ->)|[(r' & E & ->)|[(k' & r' & [<-|[<-|[<-|[]]]] & E & ->)|(r' & E & ->)]]]; (reflexivity || discriminate E).
Qed.
Lemma in_field_inv p f : in_field p f ->
  (p = [] /\ f = []) \/ exists pre l, p = pre ++ [l] /\ (names l f \/ (in_field pre f /\ (blanks l \/ exists r, l = DQ :: r))).
Proof.
  intros [|pre r|pre r|pre k r K|pre r|pre l f' F O]; [left; split; reflexivity|right..]; eexists _, _; (split; [reflexivity|]); unfold names.
  - left. left. eauto.
  - left. right. left. eauto.
  - left. right. right. left. eauto 6.
  - left. right. right. right. eauto.
  - right. split; assumption.
Qed.
Lemma in_field_one : forall p f g, in_field p f -> in_field p g -> f = g.
Proof.
  induction p as [|l p IH] using rev_ind; intros f g F G.
  - apply in_field_inv in F as [[_ ->]|(pre & l & E & _)]; [|destruct pre; discriminate].
    apply in_field_inv in G as [[_ ->]|(pre & l & E & _)]; [reflexivity|destruct pre; discriminate].
  - apply in_field_inv in F as [[E _]|(pre & l' & E & F)]; [destruct p; discriminate|]. apply app_inj_tail in E as [<- <-].
    apply in_field_inv in G as [[E _]|(pre & l' & E & G)]; [destruct p; discriminate|]. apply app_inj_tail in E as [<- <-].
    destruct F as [F|[F P]], G as [G|[G P']].
    + exact (names_one _ _ _ F G).
    + destruct (names_head _ _ F P').
    + destruct (names_head _ _ G P).
    + exact (IH _ _ F G).
Qed.
