(** The reader on the beginning of a file. *)
From Coq Require Import Lia.
From Verif Require Import GoStr GoStrFacts TrimFacts GoQuote GoQuoteFacts GoMap GoMapFacts FileModel FileFacts
  PoModel PoSpec PoReadFacts PoSameFacts PoWriteFacts PoCatalogFacts BlankSpec BlankFacts LitSpec LitFacts
  PoGramSpec PoGramFacts CutSpec.

(** ** The reader as a list of entries *)
Definition step (s : pstate) (e : entry) (l : bytes) : option (list entry * pstate * entry) :=
  match line_action s e l with
  | ANext s' e' => Some ([], s', e')
  | AUnget => match line_action SNone zero_entry l with ANext s' e' => Some ([e], s', e') | _ => None end
  | _ => None
  end.
Fixpoint run (s : pstate) (e : entry) (lines : list bytes) : option (list entry * pstate * entry) :=
  match lines with
  | [] => Some ([], s, e)
  | l :: r =>
      match step s e l with
      | Some (p, s1, e1) => match run s1 e1 r with Some (q, s2, e2) => Some (p ++ q, s2, e2) | None => None end
      | None => None
      end
  end.
Lemma run_app a : forall s e b, run s e (a ++ b) =
  match run s e a with
  | Some (p, s1, e1) => match run s1 e1 b with Some (q, s2, e2) => Some (p ++ q, s2, e2) | None => None end
  | None => None
  end.
Proof.
  induction a as [|l a IH]; intros s e b; cbn [app run].
  - destruct (run s e b) as [[[q s2] e2]|]; reflexivity.
  - destruct (step s e l) as [[[p s1] e1]|]; [|reflexivity]. rewrite IH.
    destruct (run s1 e1 a) as [[[q s2] e2]|]; [|reflexivity].
    destruct (run s2 e2 b) as [[[q' s3] e3]|]; [|reflexivity]. rewrite app_assoc. reflexivity.
Qed.
Lemma run_mach lines : forall f s e,
  match run s e lines with
  | Some (p, _, e') => mach false f s e lines = PoOk (fold_left (addif false) (p ++ [e']) f)
  | None => forall g, mach false f s e lines <> PoOk g
  end.
Proof.
  induction lines as [|l r IH]; intros f s e; cbn [run mach]; [reflexivity|]. unfold step.
  destruct (line_action s e l) as [s1 e1| | |]; try discriminate.
  - specialize (IH f s1 e1). destruct (run s1 e1 r) as [[[q s2] e2]|]; exact IH.
  - destruct (line_action SNone zero_entry l) as [s1 e1| | |]; try discriminate.
    specialize (IH (addif false f e) s1 e1). destruct (run s1 e1 r) as [[[q s2] e2]|]; exact IH.
Qed.
Lemma run_acts s e a s1 e1 : acts s e a s1 e1 -> run s e a = Some ([], s1, e1).
Proof.
  intros H. induction H as [|s e l s1 e1 r s2 e2 E H IH]; [reflexivity|]. cbn [run]. unfold step. rewrite E, IH. reflexivity.
Qed.
Lemma read_run c f : c <> [] -> read_po c = PoOk f <->
  exists p s e, run SNone zero_entry (po_lines_of c) = Some (p, s, e) /\ f = fold_left (addif false) (p ++ [e]) new_file.
Proof.
  intros H. unfold read_po. rewrite (read_po_mach false c H).
  pose proof (run_mach (po_lines_of c) new_file SNone zero_entry) as R.
  destruct (run SNone zero_entry (po_lines_of c)) as [[[p s] e]|].
  - rewrite R. split; [intros [= <-]; eauto|intros (p' & s' & e' & [= <- <- <-] & ->); reflexivity].
  - split; [intros E; destruct (R _ E)|intros (p' & s' & e' & E & _); discriminate].
Qed.

(** ** Entries grow at their ends *)
Definition grown (s : pstate) (e : entry) : Prop :=
  (e_str e <> [] -> s = SStr) /\ (e_strn e <> [] -> s = SStrN).
Lemma grown_zero : grown SNone zero_entry. Proof. split; intros H; destruct H; reflexivity. Qed.
Lemma shortened_refl e : shortened e e.
Proof.
  split; [reflexivity|]. split; [exists []; symmetry; apply app_nil_r|].
  intros i v H. exists []. rewrite app_nil_r. auto.
Qed.
Lemma shortened_len e e1 : shortened e e1 -> length (e_strn e) <= length (e_strn e1).
Proof.
  intros (_ & _ & H). destruct (e_strn e) as [|x l] eqn:E; [cbn; lia|].
  destruct (nth_error (x :: l) (length l)) as [v|] eqn:N; [|apply nth_error_None in N; cbn in N; lia].
  destruct (H _ _ N) as (r & N' & _). assert (nth_error (e_strn e1) (length l) <> None) as K by congruence.
  apply nth_error_Some in K. cbn [length]. lia.
Qed.
Lemma shortened_trans a b c : shortened a b -> shortened b c -> shortened a c.
Proof.
  intros H1 H2. pose proof (shortened_len _ _ H1) as L. destruct H1 as (E1 & (r1 & S1) & N1), H2 as (E2 & (r2 & S2) & N2).
  split; [congruence|]. split; [exists (r1 ++ r2); rewrite S2, S1, app_assoc; reflexivity|].
  intros i v H. destruct (N1 _ _ H) as (r & H1 & R1). destruct (N2 _ _ H1) as (r' & H2 & R2).
  exists (r ++ r'). rewrite app_assoc. split; [exact H2|]. intros Hi. rewrite R1, R2 by lia. reflexivity.
Qed.
Lemma shortened_str e d : shortened e (app_str e d).
Proof.
  split; [reflexivity|]. split; [exists d; reflexivity|]. intros i v H. exists []. rewrite app_nil_r. auto.
Qed.
Lemma shortened_new e d : shortened e (new_strn e d).
Proof.
  split; [reflexivity|]. split; [exists []; symmetry; apply app_nil_r|]. intros i v H. exists []. rewrite app_nil_r.
  split; [|reflexivity]. cbn [new_strn e_strn]. rewrite nth_error_app1; [exact H|]. apply nth_error_Some. congruence.
Qed.
Lemma app_last_nth l d : forall l', app_last l d = Some l' -> forall i v, nth_error l i = Some v ->
  exists r, nth_error l' i = Some (v ++ r) /\ (S i < length l -> r = []).
Proof.
  induction l as [|x l IH]; intros l' E i v N; [discriminate|]. destruct l as [|y l].
  - injection E as <-. destruct i as [|[|i]]; try discriminate. injection N as ->. exists d. split; [reflexivity|cbn; lia].
  - change (option_map (cons x) (app_last (y :: l) d) = Some l') in E.
    destruct (app_last (y :: l) d) as [l1|] eqn:E1; [|discriminate]. injection E as <-.
    destruct i as [|i].
    + injection N as ->. exists []. rewrite app_nil_r. auto.
    + destruct (IH _ eq_refl _ _ N) as (r & H & R). exists r. split; [exact H|]. intros Hi. apply R. cbn [length] in *. lia.
Qed.
Lemma shortened_last e d e' : app_strn e d = Some e' -> shortened e e'.
Proof.
  unfold app_strn. destruct (app_last (e_strn e) d) as [l|] eqn:E; [|discriminate]. intros [= <-].
  split; [reflexivity|]. split; [exists []; symmetry; apply app_nil_r|]. cbn [e_strn]. apply app_last_nth with (d := d), E.
Qed.
Lemma grown_not s e : grown s e -> s <> SStr -> s <> SStrN -> e_str e = [] /\ e_strn e = [].
Proof. intros [A C] N1 N2. split; [destruct (e_str e)|destruct (e_strn e)]; auto; exfalso; [apply N1, A|apply N2, C]; discriminate. Qed.
Lemma untranslated e : e_str e = [] /\ e_strn e = [] -> ~ translated e.
Proof. intros [A C] [T|T]; auto. Qed.
Lemma grown_plain s e e' : e_str e = [] /\ e_strn e = [] -> e_str e' = e_str e -> e_strn e' = e_strn e ->
  grown s e' /\ (translated e -> shortened e e').
Proof.
  intros U E1 E2. split; [|intros T; destruct (untranslated e U T)].
  destruct U as [U1 U2]. split; intros H; exfalso; apply H; congruence.
Qed.
Lemma action_grown s e l s' e' : grown s e -> line_action s e l = ANext s' e' ->
  grown s' e' /\ (translated e -> shortened e e').
Proof.
  intros G. unfold line_action.
  destruct (is_empty _); [intros [= <- <-]; split; [exact G|intros _; apply shortened_refl]|].
  destruct (has_prefix P_cmt l).
  { destruct s; cbn [st_eqb negb]; try discriminate. intros [= <- <-].
    apply grown_plain; [apply (grown_not _ _ G); discriminate|reflexivity..]. }
  destruct (has_prefix P_ctxt l).
  { destruct s; cbn [st_eqb negb]; try discriminate. unfold on_data. destruct (remove_prefix_unquote _ _); [|discriminate].
    intros [= <- <-]. apply grown_plain; [apply (grown_not _ _ G); discriminate|reflexivity..]. }
  destruct (has_prefix P_id2 l).
  { destruct s; cbn [equals_any existsb st_eqb orb]; try discriminate; unfold on_data; (destruct (remove_prefix_unquote _ _); [|discriminate]);
    intros [= <- <-]; (apply grown_plain; [apply (grown_not _ _ G); discriminate|reflexivity..]). }
  destruct (has_prefix P_id l).
  { destruct s; cbn [equals_any existsb st_eqb orb]; try discriminate; unfold on_data; (destruct (remove_prefix_unquote _ _); [|discriminate]);
    intros [= <- <-]; (apply grown_plain; [apply (grown_not _ _ G); discriminate|reflexivity..]). }
  destruct (has_prefix (P_strn _) l).
  { assert (Q : s <> SStr -> e_str e = []) by (intros N; destruct (e_str e) eqn:Es; [reflexivity|]; exfalso; apply N, (proj1 G); congruence).
    destruct s; cbn [equals_any existsb st_eqb orb]; try discriminate; unfold on_data; (destruct (remove_prefix_unquote _ _) as [d|]; [|discriminate]);
    intros [= <- <-]; (split; [split; [cbn [new_strn e_str]; rewrite Q by discriminate; intros H; destruct H; reflexivity|reflexivity]|intros _; apply shortened_new]). }
  destruct (has_prefix P_str l).
  { assert (Q : s <> SStrN -> e_strn e = []) by (intros N; destruct (e_strn e) eqn:Es; [reflexivity|]; exfalso; apply N, (proj2 G); congruence).
    destruct s; cbn [equals_any existsb st_eqb orb]; try discriminate; unfold on_data; (destruct (remove_prefix_unquote _ _) as [d|]; [|discriminate]);
    intros [= <- <-]; (split; [split; [reflexivity|cbn [app_str e_strn]; rewrite Q by discriminate; intros H; destruct H; reflexivity]|intros _; apply shortened_str]). }
  destruct (has_prefix [DQ] l); [|discriminate]. unfold on_data. destruct (remove_prefix_unquote _ _) as [d|]; [|discriminate].
  destruct s.
  - intros [= <- <-]. split; [exact G|intros _; apply shortened_refl].
  - intros [= <- <-]; apply grown_plain; [apply (grown_not _ _ G); discriminate|reflexivity..].
  - intros [= <- <-]; apply grown_plain; [apply (grown_not _ _ G); discriminate|reflexivity..].
  - intros [= <- <-]; apply grown_plain; [apply (grown_not _ _ G); discriminate|reflexivity..].
  - destruct (app_strn e d) as [e1|] eqn:E; [|discriminate]. intros [= <- <-].
    assert (e_str e1 = e_str e) as Es by (unfold app_strn in E; destruct (app_last _ _); [|discriminate]; injection E as <-; reflexivity).
    split; [|intros _; apply (shortened_last _ _ _ E)]. split; [rewrite Es; apply G|reflexivity].
  - intros [= <- <-]. split; [|intros _; apply shortened_str]. split; [reflexivity|apply G].
Qed.
Lemma step_grown s e l p s1 e1 : grown s e -> step s e l = Some (p, s1, e1) ->
  grown s1 e1 /\ ((p = [] /\ (translated e -> shortened e e1)) \/ p = [e]).
Proof.
  intros G. unfold step. destruct (line_action s e l) as [s' e'| | |] eqn:E; try discriminate.
  - intros [= <- <- <-]. destruct (action_grown _ _ _ _ _ G E). auto.
  - destruct (line_action SNone zero_entry l) as [s' e'| | |] eqn:E0; try discriminate. intros [= <- <- <-].
    split; [apply (action_grown _ _ _ _ _ grown_zero E0)|auto].
Qed.
Lemma run_grown lines : forall s e p s1 e1, grown s e -> run s e lines = Some (p, s1, e1) ->
  grown s1 e1 /\ exists e2 q, p ++ [e1] = e2 :: q /\ (translated e -> shortened e e2).
Proof.
  induction lines as [|l r IH]; intros s e p s1 e1 G; cbn [run].
  - intros [= <- <- <-]. split; [exact G|]. exists e, []. split; [reflexivity|intros _; apply shortened_refl].
  - destruct (step s e l) as [[[p0 s0] e0]|] eqn:E; [|discriminate].
    destruct (run s0 e0 r) as [[[q s2] e2]|] eqn:R; [|discriminate]. intros [= <- <- <-].
    destruct (step_grown _ _ _ _ _ _ G E) as [G0 [[-> K]| ->]]; destruct (IH _ _ _ _ _ G0 R) as (G1 & e3 & q3 & Q & K3); (split; [exact G1|]).
    + exists e3, q3. split; [exact Q|]. intros T. pose proof (K T) as K0. eapply shortened_trans; [exact K0|]. apply K3.
      destruct T as [T|T].
      * left. destruct K0 as (_ & (r0 & ->) & _). destruct (e_str e); [congruence|discriminate].
      * right. pose proof (shortened_len _ _ K0) as L. destruct (e_strn e); [congruence|]. destruct (e_strn e0); [cbn in L; lia|discriminate].
    + exists e, (q ++ [e2]). split; [reflexivity|intros _; apply shortened_refl].
Qed.

(** ** A string is not the beginning of another one *)
Lemma lit_unique b u o b' u' o' : lit b o -> lit b' o' -> b ++ DQ :: u = b' ++ DQ :: u' -> u = u' /\ o = o'.
Proof.
  intros L L' E. set (s := b ++ DQ :: u) in *.
  assert (unquote_loop (Datatypes.S (length s)) DQ s = Some (o, u)) as A by (apply loop_lit; [lia|exists b; auto]).
  assert (unquote_loop (Datatypes.S (length s)) DQ s = Some (o', u')) as A' by (apply loop_lit; [lia|exists b'; auto]).
  rewrite A in A'. injection A' as <- <-. auto.
Qed.
Lemma raw_unique (b b' u u' : bytes) : ~ In BQ b -> ~ In BQ b' -> b ++ BQ :: u = b' ++ BQ :: u' -> b = b' /\ u = u'.
Proof.
  revert b'. induction b as [|x b IH]; intros [|y b'] N N' E; injection E.
  - auto.
  - intros _ <-. destruct N'; left; reflexivity.
  - intros _ ->. destruct N; left; reflexivity.
  - intros E' ->. destruct (IH b') as [-> ->]; auto; intros H; [apply N|apply N']; right; exact H.
Qed.
Lemma literal_unique q t u q' t' u' : literal q t -> literal q' t' -> q ++ u = q' ++ u' -> u = u' /\ t = t'.
Proof.
  intros L L' E. assert (SQC : forall r o, literal (SQ :: r) o -> forall w, unquote_loop 1 SQ (r ++ w) = Some (o, w)).
  { intros r o H w. apply loop_sq. inversion H as [| |E0|body t0 C E0]; subst.
    - left. auto.
    - right. exists body. rewrite <- app_assoc. auto. }
  destruct L as [b o L|b N| |b o C]; destruct L' as [b' o' L'|b' N'| |b' o' C']; try discriminate E.
  - injection E as E. rewrite <- !app_assoc in E. exact (lit_unique _ _ _ _ _ _ L L' E).
  - injection E as E. rewrite <- !app_assoc in E. destruct (raw_unique _ _ _ _ N N' E) as [-> ->]. auto.
  - injection E as ->. auto.
  - pose proof (SQC _ _ L_none u) as A. pose proof (SQC _ _ (L_one _ _ C') u') as A'.
    injection E as E. change (SQ :: u) with ([SQ] ++ u) in E. rewrite E in A. rewrite A in A'. injection A' as <- <-. auto.
  - pose proof (SQC _ _ (L_one _ _ C) u) as A. pose proof (SQC _ _ L_none u') as A'.
    injection E as E. change (SQ :: u') with ([SQ] ++ u') in E. rewrite E in A. rewrite A in A'. injection A' as <- <-. auto.
  - pose proof (SQC _ _ (L_one _ _ C) u) as A. pose proof (SQC _ _ (L_one _ _ C') u') as A'.
    injection E as E. rewrite E in A. rewrite A in A'. injection A' as <- <-. auto.
Qed.
Lemma blanks_lead a q t u a' q' t' u' : blanks a -> blanks a' -> literal q t -> literal q' t' ->
  a ++ q ++ u = a' ++ q' ++ u' -> q ++ u = q' ++ u'.
Proof.
  intros Ba Ba' L L' E.
  assert (NB : forall q t u, literal q t -> forall w v, blank1 w -> q ++ u <> w ++ v).
  { intros q0 t0 u0 L0 w v W E0. destruct (literal_ends _ _ L0) as (c & m & Hc & ->).
    destruct Hc as [-> | [-> | ->]]; blank_cases W; discriminate E0. }
  pose proof (trim_left_blanks (length (a ++ q ++ u)) a (q ++ u) Ba ltac:(lia) (NB _ _ _ L)) as T.
  rewrite E in T. rewrite (trim_left_blanks (length (a' ++ q' ++ u')) a' (q' ++ u') Ba' ltac:(lia) (NB _ _ _ L')) in T. auto.
Qed.
(** if a text and a longer one are both a string, the rest is white *)
Lemma spaced_prefix s z t t' : spaced s t -> spaced (s ++ z) t' -> t = t'.
Proof.
  intros (a & q & b & -> & Ba & _ & L) (a' & q' & b' & E & Ba' & _ & L'). rewrite <- !app_assoc in E.
  apply (blanks_lead _ _ _ _ _ _ _ _ Ba Ba' L L') in E. apply (literal_unique _ _ _ _ _ _ L L' E).
Qed.
Lemma data_prefix p t z k : on_data (p ++ t) p k = AErr \/ on_data ((p ++ t) ++ z) p k = AErr
  \/ on_data ((p ++ t) ++ z) p k = on_data (p ++ t) p k.
Proof.
  unfold on_data, remove_prefix_unquote. rewrite <- app_assoc, !trim_prefix_app.
  destruct (unquote (trim_space t)) as [d|] eqn:E; [|auto]. destruct (unquote (trim_space (t ++ z))) as [d'|] eqn:E'; [|auto].
  right; right. f_equal. symmetry. exact (spaced_prefix _ _ _ _ (trim_spaced _ _ E) (trim_spaced _ _ E')).
Qed.

(** ** One line and its beginning *)
Lemma la_cmt s e t : line_action s e (P_cmt ++ t) = if negb (st_eqb s SNone) then AUnget else ANext s (app_cmt e (P_cmt ++ t)).
Proof. unfold line_action. change (P_cmt ++ t) with ("#"%char :: t). rewrite not_blank by (vm_compute; auto). reflexivity. Qed.
Ltac la m rest := unfold line_action; change (is_empty (trim_space (m ++ rest))) with (is_empty (trim_space ("m"%char :: tl (m ++ rest))));
  rewrite not_blank by apply visible_m; reflexivity.
Lemma la_ctxt s e t : line_action s e (P_ctxt ++ t) =
  if negb (st_eqb s SNone) then AUnget else on_data (P_ctxt ++ t) P_ctxt (fun d => ANext SCtxt (app_ctxt e d)).
Proof. la P_ctxt t. Qed.
Lemma la_id2 s e t : line_action s e (P_id2 ++ t) =
  if equals_any s [SId2; SStr; SStrN] then AUnget else on_data (P_id2 ++ t) P_id2 (fun d => ANext SId2 (set_plural (app_id2 e d))).
Proof. la P_id2 t. Qed.
Lemma la_id s e t : line_action s e (P_id ++ t) =
  if equals_any s [SId; SId2; SStr; SStrN] then AUnget else on_data (P_id ++ t) P_id (fun d => ANext SId (app_id e d)).
Proof. la P_id t. Qed.
Lemma la_str s e t : line_action s e (P_str ++ t) =
  if equals_any s [SStrN] then AUnget else on_data (P_str ++ t) P_str (fun d => ANext SStr (app_str e d)).
Proof. la P_str t. Qed.
Lemma la_strn s e t : let P := P_strn (length (e_strn e)) in line_action s e (P ++ t) =
  if equals_any s [SStr] then AUnget else on_data (P ++ t) P (fun d => ANext SStrN (new_strn e d)).
Proof.
  intros P. unfold line_action.
  change (is_empty (trim_space (P ++ t))) with (is_empty (trim_space ("m"%char :: tl (P ++ t)))).
  rewrite not_blank by apply visible_m.
  change (has_prefix P_cmt (P ++ t)) with false. change (has_prefix P_ctxt (P ++ t)) with false.
  change (has_prefix P_id2 (P ++ t)) with false. change (has_prefix P_id (P ++ t)) with false.
  fold P. rewrite has_prefix_app. reflexivity.
Qed.
Definition more_action (s : pstate) (e : entry) (d : bytes) : action :=
  match s with
  | SNone => ANext s e
  | SCtxt => ANext s (app_ctxt e d)
  | SId2 => ANext s (app_id2 e d)
  | SId => ANext s (app_id e d)
  | SStrN => match app_strn e d with Some e' => ANext s e' | None => APanic end
  | SStr => ANext s (app_str e d)
  end.
Lemma la_more s e t : line_action s e (DQ :: t) = on_data (DQ :: t) [] (more_action s e).
Proof. unfold line_action. rewrite not_blank by apply visible_dq. reflexivity. Qed.
(** the forms of a line that is not refused *)
Definition form (e : entry) (p : bytes) : Prop :=
  p = P_ctxt \/ p = P_id2 \/ p = P_id \/ p = P_strn (length (e_strn e)) \/ p = P_str.
Lemma line_form s e t : line_action s e t <> AErr ->
  white t \/ (exists u, t = P_cmt ++ u) \/ (exists p u, form e p /\ t = p ++ u) \/ exists u, t = DQ :: u.
Proof.
  unfold line_action, form. destruct (is_empty (trim_space t)) eqn:E0; [intros _; left; apply blank_white, E0|].
  intros H. right.
  destruct (has_prefix P_cmt t) eqn:E1; [left; apply has_prefix_iff, E1|].
  destruct (has_prefix P_ctxt t) eqn:E2; [right; left; apply has_prefix_iff in E2 as (u & ->); eauto 8|].
  destruct (has_prefix P_id2 t) eqn:E3; [right; left; apply has_prefix_iff in E3 as (u & ->); eauto 8|].
  destruct (has_prefix P_id t) eqn:E4; [right; left; apply has_prefix_iff in E4 as (u & ->); eauto 8|].
  destruct (has_prefix (P_strn _) t) eqn:E5; [right; left; apply has_prefix_iff in E5 as (u & ->); eauto 9|].
  destruct (has_prefix P_str t) eqn:E6; [right; left; apply has_prefix_iff in E6 as (u & ->); eauto 10|].
  destruct (has_prefix [DQ] t) eqn:E7; [right; right; apply has_prefix_iff in E7 as (u & ->); exists u; reflexivity|congruence].
Qed.
(** a longer line does the same or is refused *)
Lemma action_prefix s e t z : line_action s e t <> AErr -> white t \/ (exists u, t = P_cmt ++ u)
  \/ line_action s e (t ++ z) = AErr \/ line_action s e (t ++ z) = line_action s e t.
Proof.
  intros H. destruct (line_form s e t H) as [W|[C|[(p & u & F & ->)|(u & ->)]]]; [auto|auto|right; right..].
  - destruct F as [-> | [-> | [-> | [-> | ->]]]]; rewrite <- app_assoc.
    + rewrite la_ctxt in *. rewrite la_ctxt. destruct (negb _); [auto|].
      rewrite (app_assoc _ u z). destruct (data_prefix P_ctxt u z (fun d => ANext SCtxt (app_ctxt e d))) as [D|[D|D]]; [congruence|auto..].
    + rewrite la_id2 in *. rewrite la_id2. destruct (equals_any _ _); [auto|].
      rewrite (app_assoc _ u z). edestruct (data_prefix P_id2 u z) as [D|[D|D]]; [|left; exact D|right; exact D]. destruct (H D).
    + rewrite la_id in *. rewrite la_id. destruct (equals_any _ _); [auto|].
      rewrite (app_assoc _ u z). edestruct (data_prefix P_id u z) as [D|[D|D]]; [|left; exact D|right; exact D]. destruct (H D).
    + rewrite la_strn in *. rewrite la_strn. destruct (equals_any _ _); [auto|].
      rewrite (app_assoc _ u z). edestruct (data_prefix (P_strn (length (e_strn e))) u z) as [D|[D|D]]; [|left; exact D|right; exact D]. destruct (H D).
    + rewrite la_str in *. rewrite la_str. destruct (equals_any _ _); [auto|].
      rewrite (app_assoc _ u z). edestruct (data_prefix P_str u z) as [D|[D|D]]; [|left; exact D|right; exact D]. destruct (H D).
  - change ((DQ :: u) ++ z) with (DQ :: u ++ z). rewrite la_more in *. rewrite la_more.
    change (DQ :: u ++ z) with (([] ++ DQ :: u) ++ z). change (DQ :: u) with ([] ++ DQ :: u) in *.
    edestruct (data_prefix [] (DQ :: u) z) as [D|[D|D]]; [|left; exact D|right; exact D]. destruct (H D).
Qed.
Lemma white_action s e t : white t -> line_action s e t = ANext s e.
Proof. intros W. unfold line_action. unfold white in W. rewrite W. reflexivity. Qed.
Lemma step_prefix s e t z p1 s1 e1 r : grown s e -> step s e t = Some (p1, s1, e1) -> step s e (t ++ z) = Some r ->
  (p1 = [] /\ e1 = e) \/ (fst (fst r) = p1 /\ ~ translated e1) \/ r = (p1, s1, e1).
Proof.
  intros G E1 E2. assert (NE : line_action s e t <> AErr) by (intros A; unfold step in E1; rewrite A in E1; discriminate).
  destruct (action_prefix s e t z NE) as [W|[(u & ->)|A]].
  - left. unfold step in E1. rewrite (white_action _ _ _ W) in E1. injection E1 as <- <- <-. auto.
  - right; left. unfold step in *. rewrite <- app_assoc, !la_cmt in E2. rewrite !la_cmt in E1.
    destruct (negb (st_eqb s SNone)) eqn:N.
    + injection E1 as <- <- <-. injection E2 as <-. split; [reflexivity|]. apply untranslated. auto.
    + injection E1 as <- <- <-. injection E2 as <-. split; [reflexivity|]. destruct s; try discriminate N.
      apply untranslated. exact (grown_not _ _ G ltac:(discriminate) ltac:(discriminate)).
  - unfold step in E1, E2. destruct A as [A|A]; rewrite A in E2; [discriminate|].
    destruct (line_action s e t) as [s' e'| | |] eqn:L; try discriminate; [right; right; congruence|].
    destruct (line_action SNone zero_entry t) as [s0 e0| | |] eqn:L0; try discriminate.
    injection E1 as <- <- <-.
    assert (line_action SNone zero_entry t <> AErr) as N0 by congruence.
    destruct (action_prefix SNone zero_entry t z N0) as [W|[(u & ->)|[B0|B0]]].
    + rewrite (white_action _ _ _ W) in L. discriminate.
    + rewrite <- app_assoc, la_cmt in E2. rewrite la_cmt in L0. injection E2 as <-. injection L0 as <- <-. right; left.
      split; [reflexivity|]. apply untranslated. auto.
    + rewrite B0 in E2. discriminate.
    + rewrite B0, L0 in E2. right; right. congruence.
Qed.
(** what is read up to a cut, and what would have been read *)
Lemma run_cut s e pre t z post p1 s1 e1 p2 s2 e2 : grown s e ->
  run s e (pre ++ [t]) = Some (p1, s1, e1) -> run s e (pre ++ (t ++ z) :: post) = Some (p2, s2, e2) ->
  exists e3 q, p2 ++ [e2] = p1 ++ e3 :: q /\ (translated e1 -> shortened e1 e3).
Proof.
  intros G. rewrite !run_app. destruct (run s e pre) as [[[p s0] e0]|] eqn:R; [|discriminate].
  destruct (run_grown _ _ _ _ _ _ G R) as [G0 _]. clear R G s e.
  cbn [run]. destruct (step s0 e0 t) as [[[p' s'] e']|] eqn:E; [|discriminate]. intros [= <- <- <-]. rewrite app_nil_r.
  destruct (step s0 e0 (t ++ z)) as [r|] eqn:E2; [|discriminate].
  pose proof (step_prefix _ _ _ _ _ _ _ _ G0 E E2) as D. destruct (step_grown _ _ _ _ _ _ G0 E) as [G' _].
  destruct r as [[p3 s3] e3]. destruct (step_grown _ _ _ _ _ _ G0 E2) as [G3 D3].
  destruct (run s3 e3 post) as [[[q s4] e4]|] eqn:R; [|discriminate]. intros [= <- <- <-].
  destruct (run_grown _ _ _ _ _ _ G3 R) as (_ & e5 & q5 & Q5 & K5).
  rewrite <- !app_assoc. destruct D as [[-> ->]|[[Hp U]|Hr]].
  - assert (run s0 e0 ((t ++ z) :: post) = Some (p3 ++ q, s4, e4)) as RR by (cbn [run]; rewrite E2, R; reflexivity).
    destruct (run_grown _ _ _ _ _ _ G0 RR) as (_ & e6 & q6 & Q6 & K6).
    exists e6, q6. rewrite <- app_assoc in Q6. rewrite Q6. split; [rewrite app_nil_r; reflexivity|exact K6].
  - cbn [fst] in Hp. subst p3. exists e5, q5. rewrite Q5. split; [rewrite <- app_assoc; reflexivity|]. intros T; destruct (U T).
  - injection Hr as -> -> ->. exists e5, q5. rewrite Q5. split; [rewrite <- app_assoc; reflexivity|exact K5].
Qed.

(** ** The lines of a beginning *)
Lemma split_first (u : bytes) : exists z post, split_byte NL u = z :: post.
Proof.
  induction u as [|c u (z & post & IH)]; cbn [split_byte]; [eauto|]. destruct (Ascii.eqb c NL); [eauto|]. rewrite IH. eauto.
Qed.
Lemma split_cut x y : exists pre t z post, split_byte NL x = pre ++ [t] /\ split_byte NL (x ++ y) = pre ++ (t ++ z) :: post
  /\ split_byte NL y = z :: post.
Proof.
  induction x as [|c x (pre & t & z & post & E1 & E2 & E3)].
  - destruct (split_first y) as (z & post & E). exists [], [], z, post. cbn [app]. auto.
  - cbn [app split_byte]. rewrite E1, E2. destruct (Ascii.eqb c NL).
    + exists ([] :: pre), t, z, post. auto.
    + destruct pre as [|h pre]; cbn [app].
      * exists [], (c :: t), z, post. auto.
      * exists ((c :: h) :: pre), t, z, post. auto.
Qed.
Lemma remove_byte_app c x y : remove_byte c (x ++ y) = remove_byte c x ++ remove_byte c y.
Proof. apply filter_app. Qed.
Lemma lines_cut x y : exists pre t z post, po_lines_of x = pre ++ [t] /\ po_lines_of (x ++ y) = pre ++ (t ++ z) :: post.
Proof.
  unfold po_lines_of. rewrite remove_byte_app. destruct (split_cut (remove_byte CR x) (remove_byte CR y)) as (pre & t & z & post & A & C & _).
  eauto 8.
Qed.
Theorem read_cut x y f fx : x <> [] -> read_po (x ++ y) = PoOk f -> read_po x = PoOk fx ->
  exists es e es' e', f = fold_left (addif false) (es ++ e :: es') new_file
    /\ fx = fold_left (addif false) (es ++ [e']) new_file /\ (translated e' -> shortened e' e).
Proof.
  intros N H Hx. apply read_run in H as (p2 & s2 & e2 & R2 & ->); [|destruct x; [congruence|discriminate]].
  apply read_run in Hx as (p1 & s1 & e1 & R1 & ->); [|exact N].
  destruct (lines_cut x y) as (pre & t & z & post & L1 & L2). rewrite L1 in R1. rewrite L2 in R2.
  destruct (run_cut _ _ _ _ _ _ _ _ _ _ _ _ grown_zero R1 R2) as (e3 & q & Q & K).
  exists p1, e3, q, e1. rewrite Q. auto.
Qed.
(** a cut between lines is not noticed *)
Theorem cut_lines x y f : read_po ((x ++ [NL]) ++ y) = PoOk f -> exists fx, read_po (x ++ [NL]) = PoOk fx.
Proof.
  intros H. apply read_run in H as (p2 & s2 & e2 & R2 & _); [|destruct x; discriminate].
  assert (po_lines_of ((x ++ [NL]) ++ y) = po_lines_of x ++ po_lines_of y) as L.
  { rewrite <- app_assoc. unfold po_lines_of. rewrite !remove_byte_app. change (remove_byte CR [NL]) with [NL].
    destruct (split_cut (remove_byte CR x) ([NL] ++ remove_byte CR y)) as (pre & t & z & post & A & C & D).
    cbn [app split_byte] in D. rewrite Ascii.eqb_refl in D. injection D as <- <-. rewrite app_nil_r in C. cbn [app] in C |- *.
    rewrite C, A, <- app_assoc. reflexivity. }
  assert (po_lines_of (x ++ [NL]) = po_lines_of x ++ [[]]) as L1.
  { unfold po_lines_of. rewrite !remove_byte_app. change (remove_byte CR [NL]) with [NL].
    destruct (split_cut (remove_byte CR x) [NL]) as (pre & t & z & post & A & C & D).
    injection D as <- <-. rewrite app_nil_r in C. rewrite C, A, <- app_assoc. reflexivity. }
  rewrite L, run_app in R2. destruct (run SNone zero_entry (po_lines_of x)) as [[[p s] e]|] eqn:R; [|discriminate].
  eexists. apply read_run; [destruct x; discriminate|]. exists p, s, e. split; [|reflexivity].
  rewrite L1, run_app, R. cbn [run]. unfold step. rewrite white_action by reflexivity. cbn [app]. rewrite app_nil_r. reflexivity.
Qed.
