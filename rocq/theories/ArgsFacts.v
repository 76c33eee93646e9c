From Verif Require Import GoStr GoFmt SliceModel SliceFacts ArgsModel ArgsSpec.
From Coq Require Import Lia.
Local Open Scope nat_scope.

Section Mem.
Context {V : Type}.
Implicit Types (h : heap V) (p q : cell) (v : V).
Lemma cell_in h p : cell_at h p <> None -> exists a, nth_error h (fst p) = Some a /\ fst p < length h /\ snd p < length a.
Proof.
  unfold cell_at. intros N. destruct (nth_error h (fst p)) as [a|] eqn:E; [|congruence]. exists a.
  split; [reflexivity|]. split; apply nth_error_Some; congruence.
Qed.
Lemma cell_set_same h p v : cell_at h p <> None -> cell_at (set_cell h p v) p = Some v.
Proof.
  intros N. destruct (cell_in h p N) as (a & E & L1 & L2). unfold cell_at, set_cell. rewrite E, nth_update_same by exact L1.
  apply nth_update_same, L2.
Qed.
Lemma cell_set_other h p q v : cell_at h p <> None -> q <> p -> cell_at (set_cell h p v) q = cell_at h q.
Proof.
  intros I N. destruct (cell_in h p I) as (a & E & L1 & L2). unfold cell_at, set_cell. rewrite E.
  destruct (Nat.eq_dec (fst q) (fst p)) as [Ef|Ef].
  - rewrite Ef, nth_update_same, E by exact L1. apply nth_update_other; [exact L2|].
    intros Es. apply N. destruct p, q; cbn in *; congruence.
  - rewrite nth_update_other by assumption. reflexivity.
Qed.
Lemma cell_dec p q : {p = q} + {p <> q}.
Proof. decide equality; apply Nat.eq_dec. Qed.
Lemma cell_set_in h p q v : cell_at h p <> None -> cell_at h q <> None -> cell_at (set_cell h p v) q <> None.
Proof.
  intros P Q. destruct (cell_dec q p) as [->|N]; [rewrite cell_set_same by exact P; discriminate|].
  rewrite cell_set_other by assumption. exact Q.
Qed.
Lemma slice_ok_set h p v s : cell_at h p <> None -> slice_ok h s -> slice_ok (set_cell h p v) s.
Proof.
  intros P (L & a & E & La). split; [exact L|]. destruct (cell_in h p P) as (b & Eb & L1 & L2). unfold set_cell. rewrite Eb.
  destruct (Nat.eq_dec (sl_arr s) (fst p)) as [Es|Es].
  - rewrite Es in *. assert (a = b) by congruence. subst b. exists (update a (snd p) v).
    rewrite nth_update_same by exact L1. split; [reflexivity|]. rewrite update_length by exact L2. exact La.
  - exists a. rewrite nth_update_other by assumption. split; assumption.
Qed.
End Mem.

Section F.
Context {A : Type}.
Notation V := (arg A).
Implicit Types (h : heap V).

(** a goroutine that, with the memory [h] to itself, ends with [r], looking at
    the elements of [F] and changing those of [W] only *)
Inductive does {R} (F W : cell -> Prop) : heap V -> aprog R -> R -> Prop :=
| D_ret h r : does F W h (ARet r) r
| D_read h p k v r : F p -> cell_at h p = Some v -> does F W h (k v) r -> does F W h (ARead p k) r
| D_write h p v k r : W p -> cell_at h p <> None -> does F W (set_cell h p v) k r -> does F W h (AWrite p v k) r.

Lemma does_agree {R} (F W : cell -> Prop) h (p : aprog R) r : does F W h p r ->
  forall h', (forall x, F x \/ W x -> cell_at h' x = cell_at h x) -> does F W h' p r.
Proof.
  induction 1 as [h r|h p k v r Fp E D IH|h p v k r Wp N D IH]; intros h' Ag.
  - constructor.
  - apply D_read with v; [exact Fp|rewrite Ag by auto; exact E|apply IH, Ag].
  - assert (N' : cell_at h' p <> None) by (rewrite Ag by auto; exact N).
    apply D_write; [exact Wp|exact N'|]. apply IH. intros x Hx.
    destruct (cell_dec x p) as [->|Nx]; [rewrite !cell_set_same by assumption; reflexivity|].
    rewrite !cell_set_other by assumption. apply Ag, Hx.
Qed.

Lemma read_from_does {R} (F W : cell -> Prop) h arr a (k : list V -> aprog R) r : nth_error h arr = Some a ->
  forall n i acc, i + n <= length a -> (forall j, i <= j < i + n -> F (arr, j)) ->
  does F W h (k (rev acc ++ firstn n (skipn i a))) r -> does F W h (read_from arr i n acc k) r.
Proof.
  intros E. induction n as [|n IH]; intros i acc L HF D; cbn [read_from].
  - cbn [firstn] in D. rewrite app_nil_r in D. exact D.
  - destruct (nth_error a i) as [v|] eqn:Ev; [|apply nth_error_None in Ev; lia].
    apply D_read with v; [apply HF; lia|unfold cell_at; cbn [fst snd]; rewrite E; exact Ev|].
    apply IH; [lia|intros j Hj; apply HF; lia|]. cbn [rev]. rewrite <- app_assoc. cbn [app].
    assert (Es : skipn i a = v :: skipn (S i) a).
    { clear - Ev. revert a Ev. induction i as [|i IH]; intros [|x a] Ev; try discriminate; cbn [nth_error] in Ev.
      - injection Ev as ->. reflexivity.
      - cbn [skipn]. apply IH, Ev. }
    rewrite Es in D. exact D.
Qed.

Lemma spare_in h s : slice_ok h s -> sl_len s < sl_cap s -> cell_at h (sl_arr s, sl_off s + sl_len s) <> None.
Proof.
  intros (L & a & E & La) Lt. unfold cell_at. cbn [fst snd]. rewrite E. apply nth_error_Some. lia.
Qed.
Lemma within_set h p v (o : @aop A) : cell_at h p <> None -> within h o -> within (set_cell h p v) o.
Proof. intros P. destruct o as [f s|q w|q]; cbn [within]; [apply slice_ok_set|apply cell_set_in|apply cell_set_in]; exact P. Qed.
Lemma elems_spare h s v : slice_ok h s -> sl_len s < sl_cap s ->
  exists a', nth_error (set_cell h (sl_arr s, sl_off s + sl_len s) v) (sl_arr s) = Some a'
    /\ sl_off s + S (sl_len s) <= length a' /\ firstn (S (sl_len s)) (skipn (sl_off s) a') = elems h s ++ [v].
Proof.
  intros Ok Lt. pose proof (append1_spec [] h s v Ok) as Sp. unfold append1 in Sp.
  destruct (Nat.ltb_spec (sl_len s) (sl_cap s)) as [_|B]; [|lia]. destruct Ok as (L & a & E & La). rewrite E in Sp.
  destruct Sp as (S1 & _). unfold set_cell. cbn [fst snd]. rewrite E. unfold elems at 1 in S1. cbn [sl_arr sl_off sl_len] in S1.
  pose proof (heap_lt h s a E) as Lh. rewrite nth_update_same in S1 by exact Lh.
  exists (update a (sl_off s + sl_len s) v). rewrite nth_update_same by exact Lh. split; [reflexivity|].
  split; [rewrite update_length by lia; lia|exact S1].
Qed.

(** goroutines whose elements do not overlap *)
Definition good {R} (F W : nat -> cell -> Prop) (rs : list R) (c : heap V * list (aprog R)) : Prop :=
  length (snd c) = length rs
  /\ forall j p r, nth_error (snd c) j = Some p -> nth_error rs j = Some r -> does (F j) (W j) (fst c) p r.
Lemma nth_app_mid {T} (a b : list T) x : nth_error (a ++ x :: b) (length a) = Some x.
Proof. rewrite nth_error_app2, Nat.sub_diag by lia. reflexivity. Qed.
Lemma nth_app_mid_other {T} (a b : list T) x y j : j <> length a -> nth_error (a ++ x :: b) j = nth_error (a ++ y :: b) j.
Proof.
  intros N. destruct (Nat.lt_ge_cases j (length a)) as [L|L]; [rewrite !nth_error_app1 by exact L; reflexivity|].
  rewrite !nth_error_app2 by exact L. destruct (j - length a) eqn:E; [lia|reflexivity].
Qed.
Lemma good_step {R} (F W : nat -> cell -> Prop) (rs : list R) h a p b h' p' :
  (forall i j x, i <> j -> W i x -> ~ F j x /\ ~ W j x) ->
  good F W rs (h, a ++ p :: b) -> astep h p = Some (h', p') -> good F W rs (h', a ++ p' :: b).
Proof.
  intros Dis [L G] St. cbn [fst snd] in *. split; [cbn [snd]; rewrite app_length in *; cbn [length] in *; lia|].
  intros j q r Eq Er. cbn [fst snd] in *.
  assert (Lj : length a < length rs) by (rewrite <- L, app_length; cbn [length]; lia).
  destruct (nth_error rs (length a)) as [ra|] eqn:Ea; [|apply nth_error_None in Ea; lia].
  pose proof (G _ _ _ (nth_app_mid a b p) Ea) as Da.
  destruct (Nat.eq_dec j (length a)) as [->|N].
  - rewrite nth_app_mid in Eq. injection Eq as <-. assert (ra = r) by congruence. subst ra.
    inversion Da as [h0 r0 X1 X2|h0 c k v r0 Fc Ec D X1 X2|h0 c v k r0 Wc Nc D X1 X2]; subst; cbn [astep] in St.
    + discriminate.
    + rewrite Ec in St. injection St as <- <-. exact D.
    + destruct (cell_at h c) as [w|] eqn:Ec; [|contradiction]. injection St as <- <-. exact D.
  - rewrite (nth_app_mid_other a b p' p j N) in Eq. pose proof (G _ _ _ Eq Er) as Dj.
    inversion Da as [h0 r0 X1 X2|h0 c k v r0 Fc Ec D X1 X2|h0 c v k r0 Wc Nc D X1 X2]; subst; cbn [astep] in St.
    + discriminate.
    + rewrite Ec in St. injection St as <- <-. exact Dj.
    + destruct (cell_at h c) as [w|] eqn:Ec; [|contradiction]. injection St as <- <-.
      apply (does_agree _ _ _ _ _ Dj). intros x Hx. apply cell_set_other; [rewrite Ec; discriminate|].
      intros ->. destruct (Dis _ _ _ (not_eq_sym N) Wc). tauto.
Qed.
Lemma good_steps {R} (F W : nat -> cell -> Prop) (rs : list R) c c' :
  (forall i j x, i <> j -> W i x -> ~ F j x /\ ~ W j x) -> asteps c c' -> good F W rs c -> good F W rs c'.
Proof.
  intros Dis St G. induction St as [c|c h a p b h' p' St IH S1]; [exact G|].
  apply good_step with h p; [exact Dis|apply IH, G|exact S1].
Qed.
Lemma good_no_race {R} (F W : nat -> cell -> Prop) (rs : list R) c :
  (forall i j x, i <> j -> W i x -> ~ F j x /\ ~ W j x) -> good F W rs c -> ~ arg_race (snd c).
Proof.
  intros Dis [L G] (i & j & p & q & x & N & Ei & Ej & Wp & Uq).
  assert (Li : i < length rs) by (rewrite <- L; apply nth_error_Some; congruence).
  assert (Lj : j < length rs) by (rewrite <- L; apply nth_error_Some; congruence).
  destruct (nth_error rs i) as [ri|] eqn:Ri; [|apply nth_error_None in Ri; lia].
  destruct (nth_error rs j) as [rj|] eqn:Rj; [|apply nth_error_None in Rj; lia].
  pose proof (G _ _ _ Ei Ri) as Di. pose proof (G _ _ _ Ej Rj) as Dj.
  destruct p as [r|c0 k|c0 v k]; cbn [writes_cell] in Wp; try contradiction. subst c0.
  inversion Di; subst. destruct (Dis i j x N) as [Nf Nw]; [assumption|].
  destruct q as [r|c0 k0|c0 v0 k0]; cbn [uses_cell] in Uq; try contradiction; subst c0; inversion Dj; subst; contradiction.
Qed.
(** what no goroutine changes stays *)
Lemma good_frame {R} (F W : nat -> cell -> Prop) (rs : list R) c c' x :
  (forall i j y, i <> j -> W i y -> ~ F j y /\ ~ W j y) -> asteps c c' -> good F W rs c ->
  (forall j, ~ W j x) -> cell_at (fst c') x = cell_at (fst c) x.
Proof.
  intros Dis St G N. induction St as [c|c h a p b h' p' St IH S1]; [reflexivity|].
  specialize (IH G). cbn [fst] in *. rewrite <- IH.
  pose proof (good_steps F W rs _ _ Dis St G) as [L G']. cbn [fst snd] in *.
  assert (Lj : length a < length rs) by (rewrite <- L, app_length; cbn [length]; lia).
  destruct (nth_error rs (length a)) as [ra|] eqn:Ea; [|apply nth_error_None in Ea; lia].
  pose proof (G' _ _ _ (nth_app_mid a b p) Ea) as Da.
  inversion Da as [h0 r0 X1 X2|h0 c1 k v r0 Fc Ec D X1 X2|h0 c1 v k r0 Wc Nc D X1 X2]; subst; cbn [astep] in S1.
  - discriminate.
  - rewrite Ec in S1. injection S1 as <- <-. reflexivity.
  - destruct (cell_at h c1) as [w|] eqn:Ec; [|contradiction]. injection S1 as <- <-.
    apply cell_set_other; [rewrite Ec; discriminate|]. intros ->. exact (N _ Wc).
Qed.
(** nobody waits *)
Lemma good_goes_on {R} (F W : nat -> cell -> Prop) (rs : list R) h ps j p :
  good F W rs (h, ps) -> nth_error ps j = Some p -> (exists r, p = ARet r) \/ exists h' p', astep h p = Some (h', p').
Proof.
  intros [L G] E. cbn [fst snd] in *. assert (Lj : j < length rs) by (rewrite <- L; apply nth_error_Some; congruence).
  destruct (nth_error rs j) as [r|] eqn:Er; [|apply nth_error_None in Er; lia].
  pose proof (G _ _ _ E Er) as D. inversion D as [h0 r0 X1 X2|h0 c1 k v r0 Fc Ec D' X1 X2|h0 c1 v k r0 Wc Nc D' X1 X2]; subst.
  - left. eexists. reflexivity.
  - right. cbn [astep]. rewrite Ec. eexists _, _. reflexivity.
  - right. cbn [astep]. destruct (cell_at h c1); [|contradiction]. eexists _, _. reflexivity.
Qed.
Variable print : spec -> V -> bytes.
Variable as_int : V -> option Z.
Variable extra : list V -> bytes.
Notation fmt := (format_f print as_int extra).
Lemma run_aops_does : forall os h acc (F W : cell -> Prop), Forall (within h) os ->
  (forall o p, In o os -> looks o p \/ changes o p -> F p) -> (forall o p, In o os -> changes o p -> W p) ->
  does F W h (run_aops print as_int extra os acc) (acc ++ alone fmt h os).
Proof.
  induction os as [|o os IH]; intros h acc F W Win HF HW; cbn [run_aops alone].
  - rewrite app_nil_r. constructor.
  - inversion Win as [|o' os' Wo Ws E1]; subst.
    assert (HF' : forall x p, In x os -> looks x p \/ changes x p -> F p) by (intros x p I; apply (HF x p); right; exact I).
    assert (HW' : forall x p, In x os -> changes x p -> W p) by (intros x p I; apply (HW x p); right; exact I).
    destruct o as [f s|q v|q]; cbn [within] in Wo.
    + unfold format_c, behind. pose proof (elems_length h s Wo) as Le.
      destruct (Nat.eqb_spec (sl_len s) 0) as [Z|NZ].
      * rewrite Z. cbn [Nat.ltb Nat.leb andb].
        replace (elems h s) with (@nil V) by (destruct (elems h s); [reflexivity|cbn [length] in Le; lia]).
        cbn [format_f]. specialize (IH h (acc ++ [NText f]) F W Ws HF' HW'). rewrite <- app_assoc in IH. exact IH.
      * destruct (Nat.ltb_spec 0 (sl_len s)) as [_|B]; [|lia]. cbn [andb].
        assert (Ft : forall vs, vs = elems h s ++ [VStr []] ->
          sprintf print as_int extra (sprintf print as_int extra (B "%s%%[%d]s") [VStr f; VInt (Z.of_nat (sl_len s) + 1)]) vs = fmt f (elems h s)).
        { intros vs ->. unfold format_f. rewrite <- Le. destruct (elems h s); [cbn [length] in Le; lia|reflexivity]. }
        destruct (Nat.ltb_spec (sl_len s) (sl_cap s)) as [Lt|Ge].
        -- apply D_write; [apply (HW (OFormat f s)); [left; reflexivity|cbn [changes]; split; [lia|reflexivity]]|apply spare_in; assumption|].
           destruct (elems_spare h s (VStr []) Wo Lt) as (a' & Ea & La & El).
           apply read_from_does with a'; [exact Ea|exact La| |].
           ++ intros j Hj. apply (HF (OFormat f s)); [left; reflexivity|]. cbn [looks changes fst snd].
              destruct (Nat.eq_dec j (sl_off s + sl_len s)) as [->|Nj]; [right; split; [lia|reflexivity]|left; split; [reflexivity|lia]].
           ++ cbn [rev app]. rewrite (Ft _ El).
              assert (Ws' : Forall (within (set_cell h (sl_arr s, sl_off s + sl_len s) (VStr []))) os).
              { apply Forall_forall. intros x I. apply within_set; [apply spare_in; assumption|]. rewrite Forall_forall in Ws. apply Ws, I. }
              specialize (IH _ (acc ++ [NText (fmt f (elems h s))]) F W Ws' HF' HW'). rewrite <- app_assoc in IH. exact IH.
        -- destruct Wo as (L & a & E & La).
           apply read_from_does with a; [exact E|lia| |].
           ++ intros j Hj. apply (HF (OFormat f s)); [left; reflexivity|]. left. cbn [looks fst snd]. split; [reflexivity|lia].
           ++ cbn [rev app]. rewrite (Ft _) by (unfold elems; rewrite E; reflexivity).
              specialize (IH h (acc ++ [NText (fmt f (elems h s))]) F W Ws HF' HW'). rewrite <- app_assoc in IH. exact IH.
    + apply D_write; [apply (HW (OSet q v)); [left; reflexivity|reflexivity]|exact Wo|].
      assert (Ws' : Forall (within (set_cell h q v)) os).
      { apply Forall_forall. intros x I. apply within_set; [exact Wo|]. rewrite Forall_forall in Ws. apply Ws, I. }
      specialize (IH _ (acc ++ [NDone]) F W Ws' HF' HW'). rewrite <- app_assoc in IH. exact IH.
    + destruct (cell_at h q) as [v|] eqn:E; [|contradiction].
      apply D_read with v; [apply (HF (OGet q)); [left; reflexivity|left; reflexivity]|exact E|].
      specialize (IH h (acc ++ [NVal v]) F W Ws HF' HW'). rewrite <- app_assoc in IH. exact IH.
Qed.

Lemma good_start h gs : Forall (Forall (within h)) gs ->
  good (fun i x => exists os o, nth_error gs i = Some os /\ In o os /\ (looks o x \/ changes o x))
       (fun i x => exists os o, nth_error gs i = Some os /\ In o os /\ changes o x)
       (map (alone fmt h) gs) (h, map (fun os => run_aops print as_int extra os []) gs).
Proof.
  intros Win. split; [cbn [snd]; rewrite !map_length; reflexivity|]. cbn [fst snd]. intros j p r Ep Er.
  rewrite nth_error_map in Ep, Er. destruct (nth_error gs j) as [os|] eqn:E; [|discriminate].
  cbn [option_map] in Ep, Er. injection Ep as <-. injection Er as <-.
  change (alone fmt h os) with ([] ++ alone fmt h os). apply run_aops_does.
  - rewrite Forall_forall in Win. apply Win. apply nth_error_In with j, E.
  - intros o x I H. exists os, o. auto.
  - intros o x I H. exists os, o. auto.
Qed.
End F.
