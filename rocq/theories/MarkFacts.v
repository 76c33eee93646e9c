From Verif Require Import GoStr GoStrFacts GoFmt FmtSpec GoFmtFacts FormatFacts MarkSpec.
From Coq Require Import Lia ZifyBool ZifyNat ZifyN.
Local Open Scope N_scope.

(** ** [between] as an automaton *)
Inductive q := QF | QW (v : N) | QS | QD | QP (v : N) | QT.
Definition dg (c : ascii) : N := code c - 48.
Definition more (K : N -> q) (v : N) (c : ascii) : option q :=
  if is_digit c then if 1000000 <? v then None else Some (K (v * 10 + dg c)) else None.
Definition step (s : q) (c : ascii) : option q :=
  match s with
  | QF => if is_flag c then Some QF else if is_digit c then Some (QW (dg c))
          else if Ascii.eqb c "*" then Some QS else if Ascii.eqb c "." then Some QD else None
  | QW v => if Ascii.eqb c "." then Some QD else more QW v c
  | QS => if Ascii.eqb c "." then Some QD else None
  | QD => if Ascii.eqb c "*" then Some QT else if is_digit c then Some (QP (dg c)) else None
  | QP v => more QP v c
  | QT => None
  end.
Fixpoint run (s : q) (b : bytes) : option q :=
  match b with [] => Some s | c :: t => match step s c with Some s' => run s' t | None => None end end.
Lemma run_app a : forall s b, run s (a ++ b) = match run s a with Some s' => run s' b | None => None end.
Proof. induction a as [|c a IH]; intros s b; cbn [app run]; [reflexivity|]. destruct (step s c); [apply IH|reflexivity]. Qed.
Lemma flag_in c : is_flag c = true <-> In c (B "#0+- ").
Proof.
  split.
  - destruct c as [[] [] [] [] [] [] [] []]; cbv; intros H; try discriminate H; tauto.
  - intros I. cbn in I. repeat (destruct I as [<-|I]; [reflexivity|]). destruct I.
Qed.
Lemma flag_digit c : is_flag c = true -> is_digit c = true -> c = "0"%char.
Proof. destruct c as [[] [] [] [] [] [] [] []]; cbv; intros H H'; try discriminate H; try discriminate H'; reflexivity. Qed.
Lemma dot_digit c : is_digit c = true -> Ascii.eqb c "." = false.
Proof. destruct c as [[] [] [] [] [] [] [] []]; cbv; intros H; try discriminate H; reflexivity. Qed.
Lemma star_digit c : is_digit c = true -> Ascii.eqb c "*" = false.
Proof. destruct c as [[] [] [] [] [] [] [] []]; cbv; intros H; try discriminate H; reflexivity. Qed.
Lemma val_app a : forall acc b, digits_val acc (a ++ b) = match digits_val acc a with Some v => digits_val v b | None => None end.
Proof. induction a as [|c a IH]; intros acc b; cbn [app digits_val]; [reflexivity|]. destruct (is_digit c); [apply IH|reflexivity]. Qed.
Lemma val_snoc acc a c v : digits_val acc a = Some v -> is_digit c = true -> digits_val acc (a ++ [c]) = Some (v * 10 + dg c).
Proof. intros E D. rewrite val_app, E. cbn [digits_val]. rewrite D. reflexivity. Qed.
Definition numeric (K : N -> q) : Prop := forall v c, is_digit c = true -> step (K v) c = more K v c.
Lemma num_W : numeric QW.
Proof. intros v c D. cbn [step]. rewrite dot_digit by exact D. reflexivity. Qed.
Lemma num_P : numeric QP.
Proof. intros v c D. reflexivity. Qed.
Lemma run_flags fl : (forall c, In c fl -> In c (B "#0+- ")) -> run QF fl = Some QF.
Proof.
  induction fl as [|c fl IH]; intros H; [reflexivity|]. cbn [run step]. rewrite (proj2 (flag_in c)) by (apply H; left; reflexivity).
  apply IH. intros x I. apply H. right. exact I.
Qed.
Lemma run_digits K (N_ : numeric K) : forall ds acc d c v, ds = d ++ [c] -> is_digit c = true -> digits_val acc d = Some v -> v <= 1000000 ->
  run (K acc) ds = Some (K (v * 10 + dg c)).
Proof.
  intros ds acc d. revert ds acc. induction d as [|x d IH]; intros ds acc c v -> D E L; cbn [app run].
  - cbn in E. injection E as ->. rewrite N_ by exact D. unfold more. rewrite D. destruct (N.ltb_spec 1000000 v); [lia|]. reflexivity.
  - cbn [digits_val] in E. destruct (is_digit x) eqn:X; [|discriminate]. rewrite N_ by exact X. unfold more. rewrite X.
    pose proof (digits_val_mono _ _ _ E) as M. destruct (N.ltb_spec 1000000 acc); [lia|]. apply (IH _ _ c v eq_refl D E L).
Qed.
Lemma run_number K (N_ : numeric K) s ds : (forall c, is_digit c = true -> hd_error ds = Some c -> step s c = Some (K (dg c))) -> number ds ->
  exists v, run s ds = Some (K v).
Proof.
  intros Hs (d & c & v & -> & D & E & L). destruct d as [|x d]; cbn [app run] in *.
  - rewrite (Hs c D eq_refl). eauto.
  - cbn [digits_val] in E. destruct (is_digit x) eqn:X; [|discriminate]. rewrite (Hs x X eq_refl).
    exists (v * 10 + dg c). apply (run_digits K N_ _ _ d c v eq_refl D); [|exact L]. exact E.
Qed.
Lemma between_run b : between b -> exists s, run QF b = Some s.
Proof.
  intros (fl & w & p & -> & Hf & Hw & Hp). rewrite run_app, (run_flags fl Hf), run_app.
  assert (P : forall s, step s "." = Some QD -> exists s', run s p = Some s').
  { intros s E. destruct Hp as [->|[->|[->|(ds & -> & Hn)]]].
    - exists s. reflexivity.
    - exists QD. cbn. rewrite E. reflexivity.
    - exists QT. cbn. rewrite E. reflexivity.
    - cbn [run]. rewrite E. destruct (run_number QP num_P QD ds) as [v V]; [|exact Hn|eauto].
      intros c D _. cbn [step]. rewrite star_digit, D by exact D. reflexivity. }
  destruct Hw as [->|[->|[Hn H0]]].
  - apply P. reflexivity.
  - apply P. reflexivity.
  - destruct (run_number QW num_W QF w) as [v ->]; [|exact Hn|apply P; reflexivity].
    intros c D E. cbn [step]. rewrite D. destruct (is_flag c) eqn:F; [|reflexivity].
    rewrite (flag_digit c F D) in E. congruence.
Qed.
Definition flags (fl : bytes) : Prop := forall c, In c fl -> In c (B "#0+- ").
Definition wide (w : bytes) : Prop := w = [] \/ w = B "*" \/ number w /\ hd_error w <> Some "0"%char.
Definition nums (w : bytes) (v : N) : Prop := number w /\ digits_val 0 w = Some v.
Definition inv (s : q) (b : bytes) : Prop :=
  exists fl w, flags fl /\
  match s with
  | QF => b = fl
  | QW v => b = fl ++ w /\ nums w v /\ hd_error w <> Some "0"%char
  | QS => b = fl ++ B "*"
  | QD => wide w /\ b = fl ++ w ++ B "."
  | QP v => wide w /\ exists ds, b = fl ++ w ++ "."%char :: ds /\ nums ds v
  | QT => wide w /\ b = fl ++ w ++ B ".*"
  end.
Lemma nums_one c : is_digit c = true -> nums [c] (dg c).
Proof.
  intros D. split; [exists [], c, 0; split; [reflexivity|]; split; [exact D|]; split; [reflexivity|lia]|].
  cbn [digits_val]. rewrite D. reflexivity.
Qed.
Lemma nums_more w v c : nums w v -> is_digit c = true -> v <= 1000000 -> nums (w ++ [c]) (v * 10 + dg c).
Proof.
  intros [Hn E] D L. split; [exists w, c, v; auto|]. apply val_snoc; assumption.
Qed.
Lemma number_cons w : number w -> exists c t, w = c :: t.
Proof. intros (d & c & v & -> & _). destruct d; cbn; eauto. Qed.
Lemma run_inv b : forall s, run QF b = Some s -> inv s b.
Proof.
  induction b as [|c b IH] using rev_ind; intros s H.
  - cbn in H. injection H as <-. exists [], []. split; [intros c []|reflexivity].
  - rewrite run_app in H. destruct (run QF b) as [s1|] eqn:E; [|discriminate]. specialize (IH s1 eq_refl).
    cbn [run] in H. destruct (step s1 c) as [s2|] eqn:St; [|discriminate]. injection H as ->.
    destruct IH as (fl & w & Hf & H). destruct s1; cbn [step] in St.
    + subst b. destruct (is_flag c) eqn:F.
      { injection St as <-. exists (fl ++ [c]), []. split; [|reflexivity]. intros x I. apply in_app_or in I. destruct I as [I|[<-|[]]]; [apply Hf, I|apply flag_in, F]. }
      destruct (is_digit c) eqn:D.
      { injection St as <-. exists fl, [c]. split; [exact Hf|]. split; [reflexivity|]. split; [apply nums_one, D|].
        cbn. intros [= ->]. discriminate F. }
      destruct (Ascii.eqb_spec c "*") as [->|]; [injection St as <-; exists fl, []; split; [exact Hf|reflexivity]|].
      destruct (Ascii.eqb_spec c ".") as [->|]; [injection St as <-; exists fl, []; split; [exact Hf|]; split; [left; reflexivity|reflexivity]|discriminate].
    + destruct H as (-> & Hn & H0). destruct (Ascii.eqb_spec c ".") as [->|].
      { injection St as <-. exists fl, w. split; [exact Hf|]. split; [right; right; split; [apply Hn|exact H0]|]. rewrite <- app_assoc. reflexivity. }
      unfold more in St. destruct (is_digit c) eqn:D; [|discriminate]. destruct (N.ltb_spec 1000000 v); [discriminate|]. injection St as <-.
      exists fl, (w ++ [c]). split; [exact Hf|]. split; [rewrite app_assoc; reflexivity|]. split; [apply nums_more; assumption|].
      destruct (number_cons w (proj1 Hn)) as (x & t & ->). exact H0.
    + subst b. destruct (Ascii.eqb_spec c ".") as [->|]; [|discriminate]. injection St as <-. exists fl, (B "*").
      split; [exact Hf|]. split; [right; left; reflexivity|]. rewrite <- app_assoc. reflexivity.
    + destruct H as (Hw & ->). destruct (Ascii.eqb_spec c "*") as [->|].
      { injection St as <-. exists fl, w. split; [exact Hf|]. split; [exact Hw|]. rewrite <- !app_assoc. reflexivity. }
      destruct (is_digit c) eqn:D; [|discriminate]. injection St as <-. exists fl, w. split; [exact Hf|]. split; [exact Hw|].
      exists [c]. split; [rewrite <- !app_assoc; reflexivity|apply nums_one, D].
    + destruct H as (Hw & ds & -> & Hn). unfold more in St. destruct (is_digit c) eqn:D; [|discriminate].
      destruct (N.ltb_spec 1000000 v); [discriminate|]. injection St as <-. exists fl, w. split; [exact Hf|]. split; [exact Hw|].
      exists (ds ++ [c]). split; [rewrite <- !app_assoc; reflexivity|apply nums_more; assumption].
    + discriminate.
Qed.
Lemma run_between b s : run QF b = Some s -> between b.
Proof.
  intros H. apply run_inv in H. destruct H as (fl & w & Hf & H). destruct s.
  - exists fl, [], []. subst b. rewrite !app_nil_r. split; [reflexivity|]. split; [exact Hf|]. split; left; reflexivity.
  - destruct H as (-> & Hn & H0). exists fl, w, []. rewrite app_nil_r. split; [reflexivity|]. split; [exact Hf|]. split; [right; right; split; [apply Hn|exact H0]|auto].
  - subst b. exists fl, (B "*"), []. split; [reflexivity|]. split; [exact Hf|]. split; [right; left; reflexivity|left; reflexivity].
  - destruct H as (Hw & ->). exists fl, w, (B "."). split; [reflexivity|]. split; [exact Hf|]. split; [exact Hw|right; left; reflexivity].
  - destruct H as (Hw & ds & -> & Hn). exists fl, w, ("."%char :: ds). split; [reflexivity|]. split; [exact Hf|]. split; [exact Hw|].
    right; right; right. exists ds. split; [reflexivity|apply Hn].
  - destruct H as (Hw & ->). exists fl, w, (B ".*"). split; [reflexivity|]. split; [exact Hf|]. split; [exact Hw|right; right; left; reflexivity].
Qed.
(** the number at the end *)
Definition last_val (s : q) : N := match s with QW v | QP v => v | _ => 0 end.
Lemma tail_le b : forall s a ds v, run QF b = Some s -> b = a ++ ds -> digits_val 0 ds = Some v -> v <= last_val s.
Proof.
  induction b as [|c b IH] using rev_ind; intros s a ds v H E V.
  - symmetry in E. apply app_eq_nil in E. destruct E as [-> ->]. cbn in V. injection V as <-. lia.
  - destruct ds as [|x ds _] using rev_ind; [cbn in V; injection V as <-; lia|].
    rewrite app_assoc in E. apply app_inj_tail in E. destruct E as [-> <-].
    rewrite val_app in V. destruct (digits_val 0 ds) as [v1|] eqn:V1; [|discriminate]. cbn [digits_val] in V.
    destruct (is_digit c) eqn:D; [|discriminate]. injection V as <-.
    rewrite run_app in H. destruct (run QF (a ++ ds)) as [s1|] eqn:R; [|discriminate].
    specialize (IH s1 a ds v1 eq_refl eq_refl V1). cbn [run] in H. destruct (step s1 c) as [s2|] eqn:St; [|discriminate]. injection H as ->.
    destruct s1; cbn [step] in St; unfold more in St; rewrite ?(dot_digit c D), ?(star_digit c D), ?D in St.
    + destruct (is_flag c) eqn:F.
      * injection St as <-. rewrite (flag_digit c F D). cbn in IH |- *. lia.
      * injection St as <-. cbn in IH |- *. unfold dg. lia.
    + destruct (1000000 <? v); [discriminate|]. injection St as <-. cbn [last_val] in *. unfold dg. lia.
    + discriminate.
    + injection St as <-. cbn [last_val] in *. unfold dg. lia.
    + destruct (1000000 <? v); [discriminate|]. injection St as <-. cbn [last_val] in *. unfold dg. lia.
    + discriminate.
Qed.
Lemma tail_ex b s : run QF b = Some s -> exists a ds, b = a ++ ds /\ digits_val 0 ds = Some (last_val s).
Proof.
  intros H. apply run_inv in H. destruct H as (fl & w & Hf & H).
  destruct s; try (exists b, []; rewrite app_nil_r; split; [reflexivity|reflexivity]).
  - destruct H as (-> & Hn & _). exists fl, w. split; [reflexivity|apply Hn].
  - destruct H as (Hw & ds & -> & Hn). exists (fl ++ w ++ B "."), ds. split; [rewrite <- !app_assoc; reflexivity|apply Hn].
Qed.
Definition over (s : q) (c : ascii) : Prop := is_digit c = true /\ 1000000 < last_val s.
Lemma over_too_long b s c : run QF b = Some s -> (over s c <-> too_long b c).
Proof.
  intros R. split.
  - intros [D L]. split; [exact D|]. destruct (tail_ex b s R) as (a & ds & E & V). eauto 6.
  - intros (D & a & ds & v & E & V & L). split; [exact D|]. pose proof (tail_le b s a ds v R E V). lia.
Qed.
Definition stops (s : q) (c : ascii) : Prop := step s c = None /\ c <> "["%char /\ ~ over s c.
Lemma stops_verb b s c : run QF b = Some s -> (stops s c <-> verb_byte b c).
Proof.
  intros R. unfold stops, verb_byte. rewrite (over_too_long b s c R).
  assert (E : step s c = None <-> ~ between (b ++ [c])).
  { split.
    - intros St H. apply between_run in H. destruct H as [s' H]. rewrite run_app, R in H. cbn [run] in H. rewrite St in H. discriminate.
    - intros H. destruct (step s c) as [s'|] eqn:St; [|reflexivity]. exfalso. apply H. apply run_between with s'. rewrite run_app, R. cbn [run]. rewrite St. reflexivity. }
  tauto.
Qed.
Lemma step_pct s : step s "%" = None.
Proof. destruct s; reflexivity. Qed.
Lemma run_no_pct b : forall s s', run s b = Some s' -> ~ In "%"%char b.
Proof.
  induction b as [|c b IH]; intros s s' H; [intros []|]. cbn [run] in H. destruct (step s c) as [s1|] eqn:E; [|discriminate].
  intros [->|I]; [rewrite step_pct in E; discriminate|]. apply (IH _ _ H I).
Qed.

(** ** One directive of the scanner, on every text *)
Lemma parsenum_run K (N_ : numeric K) : forall u acc b, exists ds t v, u = ds ++ t /\ run (K acc) ds = Some (K v) /\ stars ds = 0%nat
  /\ (hd_not is_digit t /\ parsenum (Z.of_N acc) b u = (Z.of_N v, b || match ds with [] => false | _ => true end, t)
      \/ exists c t', t = c :: t' /\ is_digit c = true /\ 1000000 < v /\ parsenum (Z.of_N acc) b u = (0%Z, false, [])).
Proof.
  induction u as [|c u IH]; intros acc b.
  - exists [], [], acc. split; [reflexivity|]. split; [reflexivity|]. split; [reflexivity|]. left. rewrite orb_false_r. split; [intros c x; discriminate|reflexivity].
  - cbn [parsenum]. destruct (is_digit c) eqn:D.
    + destruct (too_large (Z.of_N acc)) eqn:T.
      * exists [], (c :: u), acc. split; [reflexivity|]. split; [reflexivity|]. split; [reflexivity|]. right. exists c, u. split; [reflexivity|]. split; [exact D|].
        split; [unfold too_large in T; lia|reflexivity].
      * assert (D' : 48 <= code c <= 57) by (unfold is_digit, in_range in D; lia).
        replace (Z.of_N acc * 10 + (Z.of_N (code c) - 48))%Z with (Z.of_N (acc * 10 + dg c)) by (unfold dg; lia).
        destruct (IH (acc * 10 + dg c) true) as (ds & t & v & -> & R & Hs & H). exists (c :: ds), t, v. split; [reflexivity|].
        split; [|split].
        -- cbn [run]. rewrite N_ by exact D. unfold more. rewrite D. destruct (N.ltb_spec 1000000 acc); [unfold too_large in T; lia|exact R].
        -- unfold stars. rewrite count_occ_cons_neq; [exact Hs|]. intros ->. discriminate D.
        -- destruct H as [[H E]|(c' & t' & -> & D1 & L & E)].
           ++ left. split; [exact H|]. rewrite E, orb_true_r. reflexivity.
           ++ right. exists c', t'. auto.
    + exists [], (c :: u), acc. split; [reflexivity|]. split; [reflexivity|]. split; [reflexivity|]. left. rewrite orb_false_r. split; [|reflexivity].
      intros x y [= <- <-]. exact D.
Qed.
Lemma cont_pct c : is_cont c = true -> c <> "%"%char.
Proof. intros H ->. discriminate H. Qed.
Lemma range_pct lo hi c : 0x80 <= lo -> in_range lo hi c = true -> c <> "%"%char.
Proof. intros L H ->. unfold in_range in H. change (code "%") with 37 in H. lia. Qed.
Lemma verb_at_cons c t : exists verb hi rest, verb_at (c :: t) = Some (verb, rest) /\ t = hi ++ rest /\ ~ In "%"%char hi /\ (verb =? 37 = true <-> c = "%"%char).
Proof.
  assert (P : code c = 37 <-> c = "%"%char).
  { split; [|intros ->; reflexivity]. intros E. rewrite <- (ascii_N_embedding c). change (N_of_ascii c) with (code c). rewrite E. reflexivity. }
  cbn [verb_at]. destruct (N.ltb_spec (code c) 128) as [L|L].
  - exists (code c), [], t. split; [reflexivity|]. split; [reflexivity|]. split; [intros []|]. rewrite N.eqb_eq. exact P.
  - destruct (decode_rune (c :: t)) as [r w] eqn:E.
    assert (Hr : 128 <= r) by (pose proof (decode_rune_high c t L) as H; rewrite E in H; exact H).
    assert (Hw : exists hi, t = hi ++ skipn w (c :: t) /\ ~ In "%"%char hi).
    { cbn [decode_rune] in E. destruct (N.ltb_spec (code c) 0x80); [lia|].
      assert (One : w = 1%nat -> exists hi, t = hi ++ skipn w (c :: t) /\ ~ In "%"%char hi).
      { intros ->. exists []. split; [reflexivity|intros []]. }
      destruct (code c <? 0xC2); [apply One; congruence|].
      destruct (code c <? 0xE0).
      { destruct t as [|c1 t]; [apply One; congruence|]. destruct (is_cont c1) eqn:C1; [|apply One; congruence]. injection E as _ <-.
        exists [c1]. split; [reflexivity|]. intros [->|[]]. discriminate C1. }
      destruct (code c <? 0xF0).
      { destruct t as [|c1 [|c2 t]]; try (apply One; congruence).
        destruct (in_range _ _ c1 && is_cont c2) eqn:C; [|apply One; congruence]. injection E as _ <-.
        apply andb_true_iff in C. destruct C as [C1 C2]. exists [c1; c2]. split; [reflexivity|].
        apply range_pct in C1; [|destruct (code c =? 0xE0); lia]. intros [->|[->|[]]]; [congruence|discriminate C2]. }
      destruct (code c <? 0xF5); [|apply One; congruence].
      destruct t as [|c1 [|c2 [|c3 t]]]; try (apply One; congruence).
      destruct (in_range _ _ c1 && is_cont c2 && is_cont c3) eqn:C; [|apply One; congruence]. injection E as _ <-.
      apply andb_true_iff in C. destruct C as [C C3]. apply andb_true_iff in C. destruct C as [C1 C2]. exists [c1; c2; c3]. split; [reflexivity|].
      apply range_pct in C1; [|destruct (code c =? 0xF0); lia]. intros [->|[->|[->|[]]]]; [congruence|discriminate C2|discriminate C3]. }
    destruct Hw as (hi & Et & Hp). exists r, hi, (skipn w (c :: t)). split; [reflexivity|]. split; [exact Et|]. split; [exact Hp|].
    rewrite N.eqb_eq. split; [intros ->; lia|]. intros ->. change (code "%") with 37 in L. lia.
Qed.

Section Directive.
Context {A : Type}.
Variable as_int : arg A -> option Z.
Variable args : list (arg A).
Notation n := (length args).
Definition kinv (x : st) (a : nat) : Prop := s_reord x = false /\ s_good x = true /\ s_arg x = Nat.min a n.
Definition clean (o : list (chunk A)) : Prop := forall vs, ~ In (CExtra vs) o.
Lemma clean_app a b : clean a -> clean b -> clean (a ++ b).
Proof. intros Ha Hb vs I. apply in_app_or in I. destruct I as [I|I]; [apply (Ha vs I)|apply (Hb vs I)]. Qed.
Lemma clean_one c : (forall vs, c <> CExtra vs) -> clean [c].
Proof. intros H vs [E|[]]. exact (H vs E). Qed.
Lemma finish_clean fl wid prec x s pre o x' r : finish args fl wid prec x s pre = (o, x', r) -> clean pre -> clean o.
Proof.
  unfold finish. intros E P. destruct (verb_at s) as [[verb rest]|].
  - destruct (verb =? 37)%N; [injection E as <- _ _; apply clean_app; [exact P|apply clean_one; discriminate]|].
    destruct (negb (s_good x)); [injection E as <- _ _; apply clean_app; [exact P|apply clean_one; discriminate]|].
    destruct (nth_error args (s_arg x)); injection E as <- _ _; (apply clean_app; [exact P|apply clean_one; discriminate]).
  - injection E as <- _ _. apply clean_app; [exact P|apply clean_one; discriminate].
Qed.
Lemma finish_reord fl wid prec x s pre o x' r : finish args fl wid prec x s pre = (o, x', r) -> s_reord x' = s_reord x.
Proof.
  unfold finish. intros E. destruct (verb_at s) as [[verb rest]|]; [|injection E as _ <- _; reflexivity].
  destruct (verb =? 37)%N; [injection E as _ <- _; reflexivity|]. destruct (negb (s_good x)); [injection E as _ <- _; reflexivity|].
  destruct (nth_error args (s_arg x)); injection E as _ <- _; reflexivity.
Qed.
Lemma arg_number_reord k s x x' r f : arg_number k s x = (x', r, f) -> s_reord x = true -> s_reord x' = true.
Proof.
  unfold arg_number. intros E H. destruct s as [|c s]; [injection E as <- _ _; exact H|]. destruct (Ascii.eqb c "["); [|injection E as <- _ _; exact H].
  destruct (parse_arg_number (c :: s)) as [[index rest] ok]. destruct (ok && _ && _); injection E as <- _ _; reflexivity.
Qed.
Lemma arg_number_index k t x x' r f : arg_number k ("["%char :: t) x = (x', r, f) -> s_reord x' = true.
Proof.
  unfold arg_number. intros E. change (Ascii.eqb "[" "[") with true in E. cbv iota in E.
  destruct (parse_arg_number ("["%char :: t)) as [[index rest] ok]. destruct (ok && _ && _); injection E as <- _ _; reflexivity.
Qed.
Lemma arg_number_not k s x : hd_not (fun c => Ascii.eqb c "[") s -> arg_number k s x = (x, s, false).
Proof. intros H. unfold arg_number. destruct s as [|c s]; [reflexivity|]. rewrite (H c s eq_refl). reflexivity. Qed.
Definition go fl wid (x : st) (after : bool) (s : bytes) (prec : option Z) pre :=
  if after then finish args fl wid prec x s pre
  else let '(x', s', _) := arg_number n s x in finish args fl wid prec x' s' pre.
Lemma go_clean fl wid x after s prec pre o x' r : go fl wid x after s prec pre = (o, x', r) -> clean pre -> clean o.
Proof.
  unfold go. destruct after; [apply finish_clean|]. destruct (arg_number n s x) as [[y s'] f]. apply finish_clean.
Qed.
Lemma go_reord fl wid x after s prec pre o x' r : go fl wid x after s prec pre = (o, x', r) -> s_reord x = true -> s_reord x' = true.
Proof.
  unfold go. destruct after; intros E H; [rewrite (finish_reord _ _ _ _ _ _ _ _ _ E); exact H|].
  destruct (arg_number n s x) as [[y s'] f] eqn:Ea. rewrite (finish_reord _ _ _ _ _ _ _ _ _ E). exact (arg_number_reord _ _ _ _ _ _ Ea H).
Qed.
Lemma with_prec_eq fl wid x after s pre : with_prec as_int args fl wid x after s pre =
  match s with
  | c :: t =>
      if Ascii.eqb c "." then
        let x := if after then set_bad x else x in
        let '(x, t, after) := arg_number n t x in
        match t with
        | c' :: t' =>
            if Ascii.eqb c' "*" then
              let '(z, isint, k) := int_from_arg as_int args (s_arg x) in
              let present := isint && negb (z <? 0)%Z in
              go fl wid (set_arg x k) false t' (if present then Some z else None) (if present then pre else pre ++ [CBadPrec])
            else
              let '(z, isnum, t'') := parsenum 0 false t in
              go fl wid x after t'' (Some (if isnum : bool then z else 0%Z)) pre
        | [] => go fl wid x after [] (Some 0%Z) pre
        end
      else go fl wid x after s None pre
  | [] => go fl wid x after s None pre
  end.
Proof. reflexivity. Qed.
Lemma with_prec_clean fl wid x after s pre o x' r : with_prec as_int args fl wid x after s pre = (o, x', r) -> clean pre -> clean o.
Proof.
  rewrite with_prec_eq. destruct s as [|c t]; [apply go_clean|]. destruct (Ascii.eqb c "."); [|apply go_clean]. cbv zeta.
  destruct (arg_number n t _) as [[y t1] f]. destruct t1 as [|c' t1]; [apply go_clean|]. destruct (Ascii.eqb c' "*").
  - destruct (int_from_arg as_int args (s_arg y)) as [[z i] k]. destruct (i && _); [apply go_clean|]. intros E P. apply (go_clean _ _ _ _ _ _ _ _ _ _ E).
    apply clean_app; [exact P|apply clean_one; discriminate].
  - destruct (parsenum 0 false (c' :: t1)) as [[z i] t2]. apply go_clean.
Qed.
Lemma with_prec_reord fl wid x after s pre o x' r : with_prec as_int args fl wid x after s pre = (o, x', r) -> s_reord x = true -> s_reord x' = true.
Proof.
  rewrite with_prec_eq. destruct s as [|c t]; [apply go_reord|]. destruct (Ascii.eqb c "."); [|apply go_reord]. cbv zeta. intros E H.
  assert (H1 : s_reord (if after then set_bad x else x) = true) by (destruct after; exact H). revert E H1.
  generalize (if after then set_bad x else x). intros x0 E H1.
  destruct (arg_number n t x0) as [[y t1] f] eqn:Ea. pose proof (arg_number_reord _ _ _ _ _ _ Ea H1) as Hy.
  destruct t1 as [|c' t1]; [exact (go_reord _ _ _ _ _ _ _ _ _ _ E Hy)|]. destruct (Ascii.eqb c' "*").
  - destruct (int_from_arg as_int args (s_arg y)) as [[z i] k]. exact (go_reord _ _ _ _ _ _ _ _ _ _ E Hy).
  - destruct (parsenum 0 false (c' :: t1)) as [[z i] t2]. exact (go_reord _ _ _ _ _ _ _ _ _ _ E Hy).
Qed.
Lemma directive_clean x s o x' r : directive as_int args x s = (o, x', r) -> clean o.
Proof.
  unfold directive. destruct (span is_flag s) as [fl s1]. cbv zeta.
  destruct (match s1 with [] => None | _ => _ end) as [[[verb rest] v]|].
  - intros [= <- _ _]. apply clean_one. discriminate.
  - intros E. destruct (arg_number n s1 _) as [[y s2] f]. assert (P : clean []) by (intros vs []).
    destruct s2 as [|c t]; [exact (with_prec_clean _ _ _ _ _ _ _ _ _ E P)|]. destruct (Ascii.eqb c "*").
    + destruct (int_from_arg as_int args (s_arg y)) as [[z i] k]. apply (with_prec_clean _ _ _ _ _ _ _ _ _ E).
      destruct i; [exact P|apply clean_one; discriminate].
    + destruct (parsenum 0 false (c :: t)) as [[z i] t2]. exact (with_prec_clean _ _ _ _ _ _ _ _ _ E P).
Qed.
Lemma directive_reord x s o x' r : directive as_int args x s = (o, x', r) -> s_reord x = true -> s_reord x' = true.
Proof.
  unfold directive. destruct (span is_flag s) as [fl s1]. cbv zeta. intros E H. revert E.
  destruct (match s1 with [] => None | _ => _ end) as [[[verb rest] v]|].
  - intros [= _ <- _]. exact H.
  - intros E. match type of E with context [arg_number n s1 ?z] => destruct (arg_number n s1 z) as [[y s2] f] eqn:Ea end.
    pose proof (arg_number_reord _ _ _ _ _ _ Ea H) as Hy.
    destruct s2 as [|c t]; [exact (with_prec_reord _ _ _ _ _ _ _ _ _ E Hy)|]. destruct (Ascii.eqb c "*").
    + destruct (int_from_arg as_int args (s_arg y)) as [[z i] k]. exact (with_prec_reord _ _ _ _ _ _ _ _ _ E Hy).
    + destruct (parsenum 0 false (c :: t)) as [[z i] t2]. apply (with_prec_reord _ _ _ _ _ _ _ _ _ E). destruct (f && i); exact Hy.
Qed.
Inductive outcome (s : q) (a : nat) (u : bytes) (x' : st) (rest : bytes) : Prop :=
| O_index b t s' : u = b ++ "["%char :: t -> run s b = Some s' -> s_reord x' = true -> outcome s a u x' rest
| O_verb b c hi s' : u = b ++ c :: hi ++ rest -> run s b = Some s' -> stops s' c -> ~ In "%"%char hi ->
    kinv x' (a + stars b + takes c) -> outcome s a u x' rest
| O_long b c r s' : u = b ++ c :: r -> run s b = Some s' -> over s' c -> rest = [] -> kinv x' (a + stars b) -> outcome s a u x' rest
| O_whole s' : run s u = Some s' -> outcome s a u x' rest.
Lemma stars_app a b : stars (a ++ b) = (stars a + stars b)%nat.
Proof. unfold stars. apply count_occ_app. Qed.
Lemma outcome_app s0 b0 s a u x' rest : run s0 b0 = Some s -> outcome s (a + stars b0) u x' rest -> outcome s0 a (b0 ++ u) x' rest.
Proof.
  intros R [b t s' -> Rb H|b c hi s' -> Rb St Hp K|b c r s' -> Rb Ov E K|s' Rb].
  - apply (O_index _ _ _ _ _ (b0 ++ b) t s'); [rewrite <- app_assoc; reflexivity|rewrite run_app, R; exact Rb|exact H].
  - apply (O_verb _ _ _ _ _ (b0 ++ b) c hi s'); auto.
    + rewrite <- app_assoc. reflexivity.
    + rewrite run_app, R. exact Rb.
    + rewrite stars_app, Nat.add_assoc. exact K.
  - apply (O_long _ _ _ _ _ (b0 ++ b) c r s'); auto.
    + rewrite <- app_assoc. reflexivity.
    + rewrite run_app, R. exact Rb.
    + rewrite stars_app, Nat.add_assoc. exact K.
  - apply (O_whole _ _ _ _ _ s'). rewrite run_app, R. exact Rb.
Qed.
Lemma next_arg a : match nth_error args (Nat.min a n) with Some _ => S (Nat.min a n) | None => Nat.min a n end = Nat.min (a + 1) n.
Proof.
  destruct (nth_error args (Nat.min a n)) eqn:E.
  - assert (Nat.min a n < n)%nat by (apply nth_error_Some; congruence). lia.
  - apply nth_error_None in E. lia.
Qed.
Lemma int_arg a : snd (int_from_arg as_int args (Nat.min a n)) = Nat.min (a + 1) n.
Proof.
  unfold int_from_arg. rewrite <- next_arg. destruct (nth_error args (Nat.min a n)) as [v|]; [|reflexivity].
  destruct (as_int v) as [z|]; [destruct (too_large z)|]; reflexivity.
Qed.
Lemma finish_cons fl wid prec x c t pre a o x' rest : kinv x a -> finish args fl wid prec x (c :: t) pre = (o, x', rest) ->
  exists hi, t = hi ++ rest /\ ~ In "%"%char hi /\ kinv x' (a + takes c).
Proof.
  intros (Kr & Kg & Ka) E. unfold finish in E. destruct (verb_at_cons c t) as (verb & hi & rest' & Ev & -> & Hp & V). rewrite Ev in E.
  unfold takes. destruct (ascii_dec c "%") as [->|Nc].
  - rewrite (proj2 V eq_refl) in E. injection E as _ <- <-. exists hi. split; [reflexivity|]. split; [exact Hp|]. rewrite Nat.add_0_r. repeat split; assumption.
  - destruct (verb =? 37); [exfalso; apply Nc, V; reflexivity|]. rewrite Kg, Ka in E. cbn [negb] in E.
    pose proof (next_arg a) as Nx. destruct (nth_error args (Nat.min a n)) as [v|]; injection E as _ <- <-; exists hi;
      (split; [reflexivity|]; split; [exact Hp|]; repeat split; cbn; [assumption|assumption|lia]).
Qed.
Lemma go_outcome s fl wid x u prec pre a o x' rest : kinv x a -> (forall c t, u = c :: t -> step s c = None /\ ~ over s c) ->
  go fl wid x false u prec pre = (o, x', rest) -> outcome s a u x' rest.
Proof.
  intros K Hu E. destruct u as [|c t]; [apply (O_whole _ _ _ _ _ s); reflexivity|].
  destruct (Hu c t eq_refl) as [St Ov]. unfold go in E. destruct (Ascii.eqb_spec c "[") as [->|Nb].
  - apply (O_index _ _ _ _ _ [] t s); [reflexivity|reflexivity|]. destruct (arg_number n ("["%char :: t) x) as [[y s'] f] eqn:Ea. rewrite (finish_reord _ _ _ _ _ _ _ _ _ E).
    exact (arg_number_index _ _ _ _ _ _ Ea).
  - rewrite arg_number_not in E by (intros z y [= <- <-]; apply Ascii.eqb_neq, Nb).
    destruct (finish_cons _ _ _ _ _ _ _ _ _ _ _ K E) as (hi & -> & Hp & K').
    apply (O_verb _ _ _ _ _ [] c hi s); auto; [split; [exact St|]; split; assumption|]. cbn. rewrite Nat.add_0_r. exact K'.
Qed.
Lemma go_nil fl wid x prec pre o x' rest : go fl wid x false [] prec pre = (o, x', rest) -> x' = x /\ rest = [].
Proof. unfold go, arg_number, finish. cbn [verb_at]. intros [= _ <- <-]. auto. Qed.
Lemma with_prec_outcome s fl wid x u pre a o x' rest : kinv x a -> step s "." = Some QD ->
  (forall c t, u = c :: t -> c <> "."%char -> step s c = None /\ ~ over s c) ->
  with_prec as_int args fl wid x false u pre = (o, x', rest) -> outcome s a u x' rest.
Proof.
  intros K Sd Hu E. rewrite with_prec_eq in E. destruct u as [|c t]; [apply (O_whole _ _ _ _ _ s); reflexivity|].
  destruct (Ascii.eqb_spec c ".") as [->|Nd].
  2:{ apply (go_outcome s _ _ _ _ _ _ _ _ _ _ K) in E; [exact E|]. intros z y [= <- <-]. apply (Hu c t eq_refl Nd). }
  cbv zeta in E. change (if false then set_bad x else x) with x in E.
  destruct t as [|c1 t].
  { apply (O_whole _ _ _ _ _ QD). cbn [run]. rewrite Sd. reflexivity. }
  destruct (Ascii.eqb_spec c1 "[") as [->|Nb].
  { apply (O_index _ _ _ _ _ (B ".") t QD); [reflexivity|cbn [B list_ascii_of_string run]; rewrite Sd; reflexivity|].
    destruct (arg_number n ("["%char :: t) x) as [[y t1] f] eqn:Ea. pose proof (arg_number_index _ _ _ _ _ _ Ea) as Hy.
    destruct t1 as [|c' t1]; [exact (go_reord _ _ _ _ _ _ _ _ _ _ E Hy)|]. destruct (Ascii.eqb c' "*").
    - destruct (int_from_arg as_int args (s_arg y)) as [[z i] k]. exact (go_reord _ _ _ _ _ _ _ _ _ _ E Hy).
    - destruct (parsenum 0 false (c' :: t1)) as [[z i] t2]. exact (go_reord _ _ _ _ _ _ _ _ _ _ E Hy). }
  rewrite arg_number_not in E by (intros z y [= <- <-]; apply Ascii.eqb_neq, Nb).
  destruct (Ascii.eqb_spec c1 "*") as [->|Ns].
  { destruct K as (Kr & Kg & Ka). rewrite Ka in E. pose proof (int_arg a) as Hi. destruct (int_from_arg as_int args (Nat.min a n)) as [[z i] k]. cbn [snd] in Hi. subst k.
    cbv zeta in E. change ("."%char :: "*"%char :: t) with (B ".*" ++ t). apply (outcome_app s (B ".*") QT); [cbn [B list_ascii_of_string run]; rewrite Sd; reflexivity|].
    eapply (go_outcome QT); [|intros; split; [reflexivity|intros [_ L]; cbn in L; lia]|exact E]. repeat split; assumption. }
  change ("."%char :: c1 :: t) with (B "." ++ c1 :: t). apply (outcome_app s (B ".") QD); [cbn [B list_ascii_of_string run]; rewrite Sd; reflexivity|].
  rewrite Nat.add_0_r. destruct (is_digit c1) eqn:D.
  - cbn [parsenum] in E. rewrite D in E. change (too_large 0) with false in E. cbv iota in E.
    assert (D' : 48 <= code c1 <= 57) by (unfold is_digit, in_range in D; lia).
    replace (0 * 10 + (Z.of_N (code c1) - 48))%Z with (Z.of_N (dg c1)) in E by (unfold dg; lia).
    destruct (parsenum_run QP num_P t (dg c1) true) as (ds & t' & v & -> & R & Hs & H).
    change (c1 :: ds ++ t') with ((c1 :: ds) ++ t'). apply (outcome_app QD (c1 :: ds) (QP v)).
    { cbn [run step]. rewrite star_digit, D by exact D. exact R. }
    replace (stars (c1 :: ds)) with 0%nat by (unfold stars in *; rewrite count_occ_cons_neq; [congruence|intros ->; discriminate D]). rewrite Nat.add_0_r.
    destruct H as [[Hd Ep]|(c & t'' & -> & Dc & L & Ep)]; rewrite Ep in E.
    + eapply (go_outcome (QP v)); [exact K| |exact E]. intros y z ->. cbn [step]. unfold more. rewrite (Hd y z eq_refl). split; [reflexivity|]. intros [Dy _].
      rewrite (Hd y z eq_refl) in Dy. discriminate.
    + apply go_nil in E. destruct E as [-> ->]. apply (O_long _ _ _ _ _ [] c t'' (QP v)); auto; [split; assumption|]. cbn. rewrite Nat.add_0_r. exact K.
  - rewrite parsenum_none in E by (intros y z [= <- <-]; exact D). eapply (go_outcome QD); [exact K| |exact E].
    intros y z [= <- <-]. cbn [step]. rewrite D, (proj2 (Ascii.eqb_neq c1 "*") Ns). split; [reflexivity|]. intros [Dy _]. congruence.
Qed.
Lemma span_spec p s : exists a t, span p s = (a, t) /\ s = a ++ t /\ (forall c, In c a -> p c = true) /\ hd_not p t.
Proof.
  induction s as [|c s IH]; cbn [span].
  - exists [], []. repeat split; [intros c []|intros c x; discriminate].
  - destruct (p c) eqn:P.
    + destruct IH as (a & t & -> & -> & Ha & Ht). exists (c :: a), t. repeat split; [|exact Ht]. intros y [<-|I]; auto.
    + exists [], (c :: s). repeat split; [intros y []|]. intros y z [= <- <-]. exact P.
Qed.
Lemma directive_outcome x u a o x' rest : s_reord x = false -> s_arg x = Nat.min a n ->
  directive as_int args x u = (o, x', rest) -> outcome QF a u x' rest.
Proof.
  intros Kr Ka E. unfold directive in E. destruct (span_spec is_flag u) as (fl & u1 & Es & -> & Hf & Ht). rewrite Es in E. cbv zeta in E.
  cbn [s_arg] in E.
  apply (outcome_app QF fl QF).
  { apply run_flags. intros c I. apply flag_in, Hf, I. }
  assert (Z0 : stars fl = 0%nat).
  { unfold stars. apply count_occ_not_In. intros I. apply Hf in I. discriminate I. }
  rewrite Z0, Nat.add_0_r. clear Z0 Es Hf.
  set (x0 := {| s_arg := s_arg x; s_good := true; s_reord := s_reord x |}) in E.
  assert (K : kinv x0 a) by (repeat split; assumption).
  destruct (match u1 with [] => None | _ => _ end) as [[[verb rest'] v]|] eqn:Si.
  - destruct u1 as [|c t]; [discriminate|]. destruct ((97 <=? code c) && (code c <=? 122)) eqn:Lc; [|discriminate].
    destruct (nth_error args (s_arg x)) as [v'|] eqn:Nx; [|discriminate]. injection Si as <- <- <-. injection E as <- <- <-.
    assert (Nc : forall z, (code z < 97)%N -> c <> z) by (intros z Hz ->; lia).
    apply (O_verb _ _ _ _ _ [] c [] QF); auto.
    + split; [|split; [apply Nc; reflexivity|]].
      * cbn [step]. rewrite (Ht c t eq_refl). replace (is_digit c) with false by (unfold is_digit, in_range; lia).
        rewrite (proj2 (Ascii.eqb_neq c "*")), (proj2 (Ascii.eqb_neq c ".")) by (apply Nc; reflexivity). reflexivity.
      * intros [_ L]. cbn in L. lia.
    + unfold takes. destruct (ascii_dec c "%") as [->|_]; [discriminate Lc|]. cbn [stars count_occ]. rewrite Nat.add_0_r.
      assert (s_arg x < n)%nat by (apply nth_error_Some; congruence). repeat split; cbn; [exact Kr|]. lia.
  - clear Si. destruct u1 as [|c t]; [apply (O_whole _ _ _ _ _ QF); reflexivity|].
    destruct (Ascii.eqb_spec c "[") as [->|Nb].
    { apply (O_index _ _ _ _ _ [] t QF); [reflexivity|reflexivity|]. destruct (arg_number n ("["%char :: t) x0) as [[y s2] f] eqn:Ea. pose proof (arg_number_index _ _ _ _ _ _ Ea) as Hy.
      destruct s2 as [|c' t1]; [exact (with_prec_reord _ _ _ _ _ _ _ _ _ E Hy)|]. destruct (Ascii.eqb c' "*").
      - destruct (int_from_arg as_int args (s_arg y)) as [[z i] k]. exact (with_prec_reord _ _ _ _ _ _ _ _ _ E Hy).
      - destruct (parsenum 0 false (c' :: t1)) as [[z i] t2]. apply (with_prec_reord _ _ _ _ _ _ _ _ _ E). destruct (f && i); exact Hy. }
    rewrite arg_number_not in E by (intros z y [= <- <-]; apply Ascii.eqb_neq, Nb).
    destruct (Ascii.eqb_spec c "*") as [->|Ns].
    { change (s_arg x0) with (s_arg x) in E. rewrite Ka in E. pose proof (int_arg a) as Hi.
      destruct (int_from_arg as_int args (Nat.min a n)) as [[z i] k]. cbn [snd] in Hi. subst k.
      change ("*"%char :: t) with (B "*" ++ t). apply (outcome_app QF (B "*") QS); [reflexivity|].
      eapply (with_prec_outcome QS); [|reflexivity| |exact E].
      - destruct K as (Kr' & Kg' & _). repeat split; assumption.
      - intros y t' -> Nd. cbn [step]. rewrite (proj2 (Ascii.eqb_neq y ".") Nd). split; [reflexivity|]. intros [_ L]. cbn in L. lia. }
    cbn [andb] in E. destruct (is_digit c) eqn:D.
    + cbn [parsenum] in E. rewrite D in E. change (too_large 0) with false in E. cbv iota in E.
      assert (D' : 48 <= code c <= 57) by (unfold is_digit, in_range in D; lia).
      replace (0 * 10 + (Z.of_N (code c) - 48))%Z with (Z.of_N (dg c)) in E by (unfold dg; lia).
      destruct (parsenum_run QW num_W t (dg c) true) as (ds & t' & v & -> & R & Hs & H).
      change (c :: ds ++ t') with ((c :: ds) ++ t'). apply (outcome_app QF (c :: ds) (QW v)).
      { cbn [run step]. rewrite (Ht c _ eq_refl), D. exact R. }
      replace (stars (c :: ds)) with 0%nat by (unfold stars in *; rewrite count_occ_cons_neq; [congruence|intros ->; discriminate D]). rewrite Nat.add_0_r.
      destruct H as [[Hd Ep]|(c' & t'' & -> & Dc & L & Ep)]; rewrite Ep in E.
      * eapply (with_prec_outcome (QW v)); [exact K|reflexivity| |exact E]. intros y z -> Nd. cbn [step]. rewrite (proj2 (Ascii.eqb_neq y ".") Nd).
        unfold more. rewrite (Hd y z eq_refl). split; [reflexivity|]. intros [Dy _]. rewrite (Hd y z eq_refl) in Dy. discriminate.
      * rewrite with_prec_eq in E. apply go_nil in E. destruct E as [-> ->]. apply (O_long _ _ _ _ _ [] c' t'' (QW v)); auto; [split; assumption|].
        cbn. rewrite Nat.add_0_r. exact K.
    + rewrite parsenum_none in E by (intros y z [= <- <-]; exact D). eapply (with_prec_outcome QF); [exact K|reflexivity| |exact E].
      intros y z [= <- <-] Nd. cbn [step]. rewrite (Ht c t eq_refl), D, (proj2 (Ascii.eqb_neq c "*") Ns), (proj2 (Ascii.eqb_neq c ".") Nd).
      split; [reflexivity|]. intros [Dy _]. congruence.
Qed.
End Directive.

(** ** [left_open], one directive at a time *)
Definition halts (s : q) (u : bytes) : Prop := forall c t, u = c :: t -> step s c = None.
Lemma split_unique b : forall s0 b' u u' s s', b ++ u = b' ++ u' -> run s0 b = Some s -> run s0 b' = Some s' -> halts s u -> halts s' u' ->
  b = b' /\ u = u' /\ s = s'.
Proof.
  induction b as [|c b IH]; intros s0 b' u u' s s' E R R' H H'.
  - cbn in R. injection R as <-. destruct b' as [|c' b'].
    + cbn in R'. injection R' as <-. auto.
    + cbn [app] in E. cbn [run] in R'. rewrite (H c' (b' ++ u') E) in R'. discriminate.
  - destruct b' as [|c' b'].
    + cbn in R'. injection R' as <-. cbn [app] in E. cbn [run] in R. rewrite (H' c (b ++ u) (eq_sym E)) in R. discriminate.
    + injection E as <- E. cbn [run] in R, R'. destruct (step s0 c) as [s1|]; [|discriminate].
      destruct (IH s1 b' u u' s s' E R R' H H') as (-> & -> & ->). auto.
Qed.
Lemma over_halts s c t : over s c -> halts s (c :: t).
Proof.
  intros [D L] y z [= <- <-]. destruct s; cbn [last_val] in L; try lia; cbn [step]; unfold more; rewrite ?(dot_digit c D), D;
    (destruct (N.ltb_spec 1000000 v); [reflexivity|lia]).
Qed.
Lemma stops_halts s c t : stops s c -> halts s (c :: t).
Proof. intros [H _] y z [= <- <-]. exact H. Qed.
Lemma nil_halts s : halts s [].
Proof. intros c t; discriminate. Qed.
Lemma lo_text c t k : c <> "%"%char -> (left_open (c :: t) k <-> left_open t k).
Proof.
  intros Nc. split.
  - intros (p & b & r & m & E & Hd & Hb & Hr & ->). destruct p as [|c' p]; [injection E as E _; congruence|]. injection E as <- ->.
    inversion Hd; subst; [|congruence]. exists p, b, r, m. auto.
  - intros (p & b & r & m & -> & Hd & Hb & Hr & ->). exists (c :: p), b, r, m. split; [reflexivity|]. split; [apply D_text; assumption|]. auto.
Qed.
Lemma lo_texts txt t k : ~ In "%"%char txt -> (left_open (txt ++ t) k <-> left_open t k).
Proof.
  induction txt as [|c txt IH]; intros H; [reflexivity|]. cbn [app]. rewrite lo_text; [apply IH|].
  - intros I. apply H. right. exact I.
  - intros ->. apply H. left. reflexivity.
Qed.
Lemma lo_none t k : ~ In "%"%char t -> ~ left_open t k.
Proof. intros H (p & b & r & m & -> & _). apply H, in_or_app. right. left. reflexivity. Qed.
(** a per cent sign: the directive gets no verb, or one *)
Lemma lo_pct u k : left_open ("%"%char :: u) k <->
  (exists b s r, u = b ++ r /\ run QF b = Some s /\ (r = [] \/ exists c r', r = c :: r' /\ over s c) /\ k = stars b)
  \/ exists b s c t k', u = b ++ c :: t /\ run QF b = Some s /\ stops s c /\ left_open t k' /\ k = (stars b + takes c + k')%nat.
Proof.
  split.
  - intros (p & b & r & m & E & Hd & Hb & Hr & ->). destruct p as [|c p].
    + left. injection E as ->. inversion Hd; subst. destruct (between_run b Hb) as [s R]. exists b, s, r. split; [reflexivity|]. split; [exact R|].
      split; [|reflexivity]. destruct Hr as [->|(c & r' & -> & Ht)]; [left; reflexivity|]. right. exists c, r'. split; [reflexivity|]. apply (over_too_long b s c R), Ht.
    + injection E as <- ->. right. inversion Hd as [|c' s' k' Nc _|b1 c1 t1 k1 Hb1 Hv1 Hd1 Ep Ek]; subst; [congruence|].
      destruct (between_run b1 Hb1) as [s1 R1]. exists b1, s1, c1, (t1 ++ "%"%char :: b ++ r), (k1 + stars b)%nat.
      split; [rewrite <- app_assoc; reflexivity|]. split; [exact R1|]. split; [apply (stops_verb b1 s1 c1 R1), Hv1|]. split; [|lia].
      exists t1, b, r, k1. auto.
  - intros [(b & s & r & -> & R & Hr & ->)|(b & s & c & t & k' & -> & R & St & (p & b1 & r & m & -> & Hd & Hb & Hr & ->) & ->)].
    + exists [], b, r, 0%nat. split; [reflexivity|]. split; [constructor|]. split; [exact (run_between b s R)|]. split; [|reflexivity].
      destruct Hr as [->|(c & r' & -> & Ov)]; [left; reflexivity|]. right. exists c, r'. split; [reflexivity|]. apply (over_too_long b s c R), Ov.
    + exists ("%"%char :: b ++ c :: p), b1, r, (stars b + takes c + m)%nat. split; [cbn; rewrite <- app_assoc; reflexivity|].
      split; [apply D_dir; [exact (run_between b s R)|apply (stops_verb b s c R), St|exact Hd]|]. split; [exact Hb|]. split; [exact Hr|lia].
Qed.
Lemma lo_verb b s c t k : run QF b = Some s -> stops s c ->
  (left_open ("%"%char :: b ++ c :: t) k <-> exists k', left_open t k' /\ k = (stars b + takes c + k')%nat).
Proof.
  intros R St. rewrite lo_pct. split.
  - intros [(b1 & s1 & r & E & R1 & Hr & ->)|(b1 & s1 & c1 & t1 & k' & E & R1 & St1 & Ho & ->)].
    + exfalso. assert (H1 : halts s1 r) by (destruct Hr as [->|(c1 & r' & -> & Ov)]; [apply nil_halts|apply over_halts, Ov]).
      destruct (split_unique b QF b1 _ _ s s1 E R R1 (stops_halts s c t St) H1) as (-> & <- & ->).
      destruct Hr as [Hr|(c1 & r' & [= <- <-] & Ov)]; [discriminate|]. apply (proj2 (proj2 St) Ov).
    + destruct (split_unique b QF b1 _ _ s s1 E R R1 (stops_halts s c t St) (stops_halts s1 c1 t1 St1)) as (-> & [= -> ->] & ->). eauto.
  - intros (k' & Ho & ->). right. exists b, s, c, t, k'. auto.
Qed.
Lemma lo_open b s r k : run QF b = Some s -> r = [] \/ (exists c r', r = c :: r' /\ over s c) ->
  (left_open ("%"%char :: b ++ r) k <-> k = stars b).
Proof.
  intros R Hr. assert (H : halts s r) by (destruct Hr as [->|(c1 & r' & -> & Ov)]; [apply nil_halts|apply over_halts, Ov]).
  rewrite lo_pct. split.
  - intros [(b1 & s1 & r1 & E & R1 & Hr1 & ->)|(b1 & s1 & c1 & t1 & k' & E & R1 & St1 & Ho & ->)].
    + assert (H1 : halts s1 r1) by (destruct Hr1 as [->|(c1 & r' & -> & Ov)]; [apply nil_halts|apply over_halts, Ov]).
      destruct (split_unique b QF b1 _ _ s s1 E R R1 H H1) as (-> & <- & ->). reflexivity.
    + exfalso. destruct (split_unique b QF b1 _ _ s s1 E R R1 H (stops_halts s1 c1 t1 St1)) as (-> & -> & ->).
      destruct Hr as [Hr|(c & r' & [= <- <-] & Ov)]; [discriminate|]. apply (proj2 (proj2 St1) Ov).
  - intros ->. left. exists b, s, r. auto.
Qed.
Lemma lo_index b s t k : run QF b = Some s -> ~ left_open ("%"%char :: b ++ "["%char :: t) k.
Proof.
  intros R. rewrite lo_pct. assert (Sb : forall s, step s "[" = None) by (intros []; reflexivity).
  assert (H : halts s ("["%char :: t)) by (intros c x [= <- <-]; apply Sb).
  intros [(b1 & s1 & r1 & E & R1 & Hr1 & ->)|(b1 & s1 & c1 & t1 & k' & E & R1 & St1 & Ho & ->)].
  - assert (H1 : halts s1 r1) by (destruct Hr1 as [->|(c1 & r' & -> & Ov)]; [apply nil_halts|apply over_halts, Ov]).
    destruct (split_unique b QF b1 _ _ s s1 E R R1 H H1) as (-> & <- & ->).
    destruct Hr1 as [Hr|(c & r' & [= <- <-] & [D _])]; discriminate.
  - destruct (split_unique b QF b1 _ _ s s1 E R R1 H (stops_halts s1 c1 t1 St1)) as (-> & [= <- <-] & ->). apply (proj1 (proj2 St1)). reflexivity.
Qed.

(** ** The whole scan *)
Lemma prefix_split (b t e r : bytes) c : ~ In "%"%char b -> b ++ c :: r = t ++ "%"%char :: e ->
  (t = b /\ c = "%"%char /\ r = e) \/ exists t', t = b ++ c :: t' /\ r = t' ++ "%"%char :: e.
Proof.
  revert t. induction b as [|x b IH]; intros t H E.
  - destruct t as [|y t]; cbn in E; injection E as -> E; [left; auto|]. right. exists t. auto.
  - destruct t as [|y t]; cbn in E; injection E as -> E; [exfalso; apply H; left; reflexivity|].
    destruct (IH t) as [(-> & -> & ->)|(t' & -> & ->)]; [intros I; apply H; right; exact I|exact E|left; auto|]. right. exists t'. auto.
Qed.
Lemma text_split (b t e r : bytes) : ~ In "%"%char b -> b ++ r = t ++ "%"%char :: e -> exists t', t = b ++ t' /\ r = t' ++ "%"%char :: e.
Proof.
  revert t. induction b as [|x b IH]; intros t H E; [exists t; auto|].
  destruct t as [|y t]; cbn in E; injection E as -> E; [exfalso; apply H; left; reflexivity|].
  destruct (IH t) as (t' & -> & ->); [intros I; apply H; right; exact I|exact E|]. exists t'. auto.
Qed.
Section Scan.
Context {A : Type}.
Variable as_int : arg A -> option Z.
Variable args : list (arg A).
Notation n := (length args).
Notation loop := (printf_loop as_int).
Lemma span_pct s : exists txt s1, span (fun c => negb (Ascii.eqb c "%")) s = (txt, s1) /\ s = txt ++ s1 /\ ~ In "%"%char txt
  /\ (s1 = [] \/ exists s2, s1 = "%"%char :: s2).
Proof.
  destruct (span_spec (fun c => negb (Ascii.eqb c "%")) s) as (txt & s1 & E & -> & Ht & Hs). exists txt, s1. split; [exact E|]. split; [reflexivity|].
  split; [intros I; apply Ht in I; discriminate I|]. destruct s1 as [|c s2]; [left; reflexivity|]. right. exists s2.
  pose proof (Hs c s2 eq_refl) as H. apply negb_false_iff, Ascii.eqb_eq in H. subst c. reflexivity.
Qed.
Lemma pre_clean (txt : bytes) : clean (match txt with [] => [] | _ => [CText txt] end : list (chunk A)).
Proof. destruct txt; [intros vs []|apply clean_one; discriminate]. Qed.
Lemma clean_in o r vs : @clean A o -> (In (CExtra vs) (o ++ r) <-> In (CExtra vs) r).
Proof. intros H. rewrite in_app_iff. pose proof (H vs). tauto. Qed.
Lemma loop_reord : forall f x s o, s_reord x = true -> loop f args x s = Some o -> clean o.
Proof.
  induction f as [|f IH]; intros x s o H E; [discriminate|]. cbn [printf_loop] in E. destruct s as [|c s].
  - rewrite H in E. cbn in E. injection E as <-. intros vs [].
  - destruct (span_pct (c :: s)) as (txt & s1 & Es & _ & _ & [->|[s2 ->]]); rewrite Es in E.
    + destruct (loop f args x []) as [r|] eqn:Er; [|discriminate]. injection E as <-. apply clean_app; [apply pre_clean|exact (IH _ _ _ H Er)].
    + destruct (directive as_int args x s2) as [[out x'] s3] eqn:Ed. destruct (loop f args x' s3) as [r|] eqn:Er; [|discriminate]. injection E as <-.
      apply clean_app; [apply pre_clean|]. apply clean_app; [exact (directive_clean _ _ _ _ _ _ _ Ed)|].
      exact (IH _ _ _ (directive_reord _ _ _ _ _ _ _ Ed H) Er).
Qed.
Lemma loop_end f x o vs : s_reord x = false -> loop f args x [] = Some o -> (In (CExtra vs) o <-> (s_arg x < n)%nat /\ vs = skipn (s_arg x) args).
Proof.
  intros H E. destruct f as [|f]; [discriminate|]. cbn [printf_loop] in E. rewrite H in E. cbn [negb andb] in E.
  destruct (Nat.ltb_spec (s_arg x) n) as [L|L]; injection E as <-.
  - split; [intros [[= <-]|[]]; auto|]. intros [_ ->]. left. reflexivity.
  - split; [intros []|]. intros [L' _]. lia.
Qed.
Lemma loop_plain f x s o vs : ~ In "%"%char s -> s_reord x = false -> loop f args x s = Some o ->
  (In (CExtra vs) o <-> (s_arg x < n)%nat /\ vs = skipn (s_arg x) args).
Proof.
  intros Hs H E. destruct s as [|c s]; [exact (loop_end f x o vs H E)|]. destruct f as [|f]; [discriminate|]. cbn [printf_loop] in E.
  destruct (span_pct (c :: s)) as (txt & s1 & Es & Et & _ & [->|[s2 ->]]); rewrite Es in E.
  - destruct (loop f args x []) as [r|] eqn:Er; [|discriminate]. injection E as <-. rewrite clean_in by apply pre_clean. exact (loop_end f x r vs H Er).
  - exfalso. apply Hs. rewrite Et. apply in_or_app. right. left. reflexivity.
Qed.
Lemma loop_scan z : ~ In "%"%char z -> forall f t x a o vs, s_reord x = false -> s_arg x = Nat.min a n ->
  loop f args x (t ++ "%"%char :: "["%char :: z) = Some o ->
  (In (CExtra vs) o <-> exists k, left_open t k /\ (a + k < n)%nat /\ vs = skipn (a + k) args).
Proof.
  intros Hz. induction f as [|f IH]; intros t x a o vs Hr Ha E; [discriminate|]. cbn [printf_loop] in E.
  destruct (t ++ "%"%char :: "["%char :: z) as [|c0 u0] eqn:Eu; [destruct t; discriminate|]. rewrite <- Eu in E.
  destruct (span_pct (t ++ "%"%char :: "["%char :: z)) as (txt & s1 & Es & Et & Hp & Hs1). rewrite Es in E. clear Eu Es c0 u0.
  symmetry in Et. apply text_split in Et; [|exact Hp]. destruct Et as (t1 & -> & ->). destruct Hs1 as [Hs1|[s2 Hs1]]; [destruct t1; discriminate|].
  rewrite Hs1 in E. destruct (directive as_int args x s2) as [[out x'] s3] eqn:Ed. destruct (loop f args x' s3) as [r|] eqn:Er; [|discriminate].
  injection E as <-. rewrite clean_in by apply pre_clean. rewrite clean_in by (exact (directive_clean _ _ _ _ _ _ _ Ed)).
  assert (Lt : (exists k, left_open (txt ++ t1) k /\ (a + k < n)%nat /\ vs = skipn (a + k) args) <->
               (exists k, left_open t1 k /\ (a + k < n)%nat /\ vs = skipn (a + k) args)).
  { split; intros (k & Ho & H); exists k; (split; [apply (lo_texts txt t1 k Hp), Ho|exact H]). }
  rewrite Lt. clear Lt. apply (directive_outcome as_int args x s2 a) in Ed; [|exact Hr|exact Ha].
  destruct t1 as [|c1 t1]; cbn [app] in Hs1; injection Hs1.
  - (* the appended directive itself: its index ends the counting *)
    intros <-. assert (Hx : s_reord x' = true).
    { destruct Ed as [b t s' Eu Rb H|b c hi s' Eu Rb St Hh K|b c r' s' Eu Rb Ov E3 K|s' Rb].
      - exact H.
      - exfalso. destruct b as [|c' b]; cbn in Eu; injection Eu as <- _; [apply (proj1 (proj2 St)); reflexivity|]. discriminate Rb.
      - exfalso. destruct b as [|c' b]; cbn in Eu; injection Eu as <- _; [destruct Ov as [D _]; discriminate D|]. discriminate Rb.
      - discriminate Rb. }
    pose proof (loop_reord _ _ _ _ Hx Er vs) as Hc. split; [intros I; destruct (Hc I)|]. intros (k & Ho & _). destruct (lo_none [] k (fun H => H) Ho).
  - intros <- ->. destruct Ed as [b t s' Eu Rb H|b c hi s' Eu Rb St Hh (Kr & _ & Ka)|b c r' s' Eu Rb Ov E3 (Kr & _ & Ka)|s' Rb].
    + pose proof (loop_reord _ _ _ _ H Er vs) as Hc. split; [intros I; destruct (Hc I)|]. intros (k & Ho & _). exfalso.
      symmetry in Eu. apply prefix_split in Eu; [|exact (run_no_pct _ _ _ Rb)]. destruct Eu as [(_ & D & _)|(t' & -> & _)]; [discriminate D|].
      exact (lo_index b s' t' k Rb Ho).
    + symmetry in Eu. apply prefix_split in Eu; [|exact (run_no_pct _ _ _ Rb)]. destruct Eu as [(-> & -> & Eh)|(t' & -> & Eh)].
      * assert (Hs3 : ~ In "%"%char s3) by (intros I; assert (I' : In "%"%char (hi ++ s3)) by (apply in_or_app; right; exact I);
          rewrite Eh in I'; destruct I' as [D|I']; [discriminate D|exact (Hz I')]).
        rewrite (loop_plain f x' s3 r vs Hs3 Kr Er), Ka. change (takes "%") with 0%nat. rewrite Nat.add_0_r.
        pose proof (lo_open b s' [] (stars b) Rb (or_introl eq_refl)) as Lo. rewrite app_nil_r in Lo. split.
        -- intros [L ->]. exists (stars b). split; [apply Lo; reflexivity|]. split; [lia|]. f_equal. lia.
        -- intros (k & Ho & L & ->). pose proof (lo_open b s' [] k Rb (or_introl eq_refl)) as Lk. rewrite app_nil_r in Lk. apply Lk in Ho. subst k.
           split; [lia|]. f_equal. lia.
      * apply text_split in Eh; [|exact Hh]. destruct Eh as (t2 & -> & ->).
        rewrite (IH t2 x' (a + stars b + takes c)%nat r vs Kr Ka Er). split.
        -- intros (k & Ho & L & ->). exists (stars b + takes c + k)%nat. split; [|split; [lia|f_equal; lia]].
           apply (lo_verb b s' c (hi ++ t2)); [exact Rb|exact St|]. exists k. split; [|reflexivity]. apply (lo_texts hi t2 k Hh), Ho.
        -- intros (k & Ho & L & ->). apply (lo_verb b s' c (hi ++ t2) k Rb St) in Ho. destruct Ho as (k' & Ho & ->).
           exists k'. split; [apply (lo_texts hi t2 k' Hh), Ho|]. split; [lia|f_equal; lia].
    + subst s3. rewrite (loop_end f x' r vs Kr Er), Ka.
      symmetry in Eu. apply prefix_split in Eu; [|exact (run_no_pct _ _ _ Rb)]. destruct Eu as [(_ & -> & _)|(t' & -> & _)]; [destruct Ov as [D _]; discriminate D|].
      assert (Ho' : forall k, left_open ("%"%char :: b ++ c :: t') k <-> k = stars b) by (intros k; apply (lo_open b s' (c :: t') k Rb); right; eauto).
      split.
      * intros [L ->]. exists (stars b). split; [apply Ho'; reflexivity|]. split; [lia|f_equal; lia].
      * intros (k & Ho & L & ->). apply Ho' in Ho. subst k. split; [lia|f_equal; lia].
    + exfalso. apply (run_no_pct _ _ _ Rb). apply in_or_app. right. left. reflexivity.
Qed.
End Scan.

(** ** The scan ends *)
Section Ends.
Context {A : Type}.
Variable as_int : arg A -> option Z.
Variable args : list (arg A).
Notation n := (length args).
Lemma parsenum_len s : forall a b z i r, parsenum a b s = (z, i, r) -> (length r <= length s)%nat.
Proof.
  induction s as [|c s IH]; intros a b z i r E; cbn [parsenum] in E; [injection E as _ _ <-; cbn; lia|].
  destruct (is_digit c); [|injection E as _ _ <-; cbn; lia]. destruct (too_large a); [injection E as _ _ <-; cbn; lia|].
  apply IH in E. cbn [length]. lia.
Qed.
Lemma tl_len (s : bytes) : (length (tl s) <= length s)%nat.
Proof. destruct s; cbn; lia. Qed.
Lemma arg_number_len k s x x' r f : arg_number k s x = (x', r, f) -> (length r <= length s)%nat.
Proof.
  unfold arg_number. intros E. destruct s as [|c s]; [injection E as _ <- _; cbn; lia|]. destruct (Ascii.eqb c "["); [|injection E as _ <- _; lia].
  destruct (parse_arg_number (c :: s)) as [[index rest] ok] eqn:P.
  assert (L : (length rest <= length (c :: s))%nat).
  { unfold parse_arg_number in P. destruct (Nat.ltb _ 3); [injection P as _ <- _; exact (tl_len (c :: s))|]. destruct (index_byte "]" (tl (c :: s))) as [k'|].
    - assert (L : (length (skipn (S k') (tl (c :: s))) <= length (c :: s))%nat) by (rewrite skipn_length; cbn [tl length]; lia).
      destruct (parsenum 0 false _) as [[w []] [|]]; injection P as _ <- _; exact L.
    - injection P as _ <- _. exact (tl_len (c :: s)). }
  destruct (ok && _ && _); injection E as _ <- _; exact L.
Qed.
Lemma finish_len fl wid prec x s pre o x' r : finish args fl wid prec x s pre = (o, x', r) -> (length r <= length s)%nat.
Proof.
  unfold finish. intros E. destruct s as [|c t]; [cbn in E; injection E as _ _ <-; cbn; lia|].
  destruct (verb_at_cons c t) as (verb & hi & rest & Ev & -> & _). rewrite Ev in E.
  assert (L : (length rest <= length (c :: hi ++ rest))%nat) by (cbn [length]; rewrite app_length; lia).
  destruct (verb =? 37); [injection E as _ _ <-; exact L|]. destruct (negb (s_good x)); [injection E as _ _ <-; exact L|].
  destruct (nth_error args (s_arg x)); injection E as _ _ <-; exact L.
Qed.
Lemma go_len fl wid x after s prec pre o x' r : go args fl wid x after s prec pre = (o, x', r) -> (length r <= length s)%nat.
Proof.
  unfold go. destruct after; [apply finish_len|]. destruct (arg_number n s x) as [[y s'] f] eqn:Ea. intros E. apply finish_len in E. apply arg_number_len in Ea. lia.
Qed.
Lemma with_prec_len fl wid x after s pre o x' r : with_prec as_int args fl wid x after s pre = (o, x', r) -> (length r <= length s)%nat.
Proof.
  rewrite with_prec_eq. destruct s as [|c t]; [apply go_len|]. destruct (Ascii.eqb c "."); [|apply go_len]. cbv zeta.
  destruct (arg_number n t _) as [[y t1] f] eqn:Ea. apply arg_number_len in Ea. cbn [length]. destruct t1 as [|c' t1].
  - intros E. apply go_len in E. cbn [length] in *. lia.
  - destruct (Ascii.eqb c' "*").
    + destruct (int_from_arg as_int args (s_arg y)) as [[z i] k]. intros E. apply go_len in E. cbn [length] in *. lia.
    + destruct (parsenum 0 false (c' :: t1)) as [[z i] t2] eqn:Ep. intros E. apply go_len in E. apply parsenum_len in Ep. lia.
Qed.
Lemma directive_len x s o x' r : directive as_int args x s = (o, x', r) -> (length r <= length s)%nat.
Proof.
  unfold directive. destruct (span_spec is_flag s) as (fl & s1 & -> & -> & _). cbv zeta. rewrite app_length.
  destruct (match s1 with [] => None | _ => _ end) as [[[verb rest] v]|] eqn:Si.
  - intros [= _ _ <-]. destruct s1 as [|c t]; [discriminate|]. destruct ((97 <=? code c) && (code c <=? 122)); [|discriminate].
    destruct (nth_error args _); [|discriminate]. injection Si as _ <- _. cbn [length]. lia.
  - clear Si. destruct (arg_number n s1 _) as [[y s2] f] eqn:Ea. apply arg_number_len in Ea. intros E.
    destruct s2 as [|c t]; [apply with_prec_len in E; cbn [length] in *; lia|]. destruct (Ascii.eqb c "*").
    + destruct (int_from_arg as_int args (s_arg y)) as [[z i] k]. apply with_prec_len in E. cbn [length] in *. lia.
    + destruct (parsenum 0 false (c :: t)) as [[z i] t2] eqn:Ep. apply with_prec_len in E. apply parsenum_len in Ep. lia.
Qed.
Lemma loop_ends : forall f x s, (length s < f)%nat -> exists o, printf_loop as_int f args x s = Some o.
Proof.
  induction f as [|f IH]; intros x s L; [lia|]. cbn [printf_loop]. destruct s as [|c s]; [eauto|].
  destruct (span_pct (c :: s)) as (txt & s1 & Es & Et & _ & [->|[s2 ->]]); rewrite Es.
  - destruct (IH x []) as [o ->]; [cbn [length] in *; lia|]. eauto.
  - destruct (directive as_int args x s2) as [[out x'] s3] eqn:Ed. apply directive_len in Ed.
    assert (El : length (c :: s) = (length txt + S (length s2))%nat) by (rewrite Et, app_length; reflexivity).
    destruct (IH x' s3) as [o ->]; [lia|]. eauto.
Qed.
End Ends.
