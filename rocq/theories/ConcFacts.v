(** Facts about ConcModel: whatever the goroutines do, the two fields are
    either unset or have the one value the catalog determines. *)
From Coq Require Import Lia Arith.
From Verif Require Import GoStr GoMap FileModel ConcModel ConcSpec.
Local Open Scope nat_scope.

Section Facts.
Context {A : Type}.
Variable fmt : bytes -> list A -> bytes.
Variable f : file.
Definition the_headers : gmap bytes := match f_headers (init_header f) with Some h => h | None => [] end.
Definition the_plural : plural := match f_plural (init_plural f) with Some p => p | None => {| p_total := 0; p_expr := None |} end.
Definition the_answer (o : @call A) : result :=
  match o with
  | CLang => RText (fst (lang f))
  | CHeader name => RHeader (fst (get_header name f))
  | CX c i args => RText (f_x fmt f c i args)
  | CXN c i i2 n args => match fst (f_xn64 fmt f c i i2 n args) with XStr s => RText s | XPanic => RPanics end
  end.
Lemma headers_set : f_headers (init_header f) = Some the_headers.
Proof. unfold the_headers, init_header. destruct (f_headers f) eqn:E; [rewrite E|]; reflexivity. Qed.
Lemma plural_set : f_plural (init_plural f) = Some the_plural.
Proof. unfold the_plural, init_plural. destruct (f_plural f) eqn:E; [rewrite E|]; reflexivity. Qed.

Definition set_h : bool := match f_headers f with Some _ => true | None => false end.
Definition set_p : bool := match f_plural f with Some _ => true | None => false end.

(** [ok r n kh kp p]: if the fields are unset or as above, and set if [kh] and
    [kp] say so, then [p] ends with [r] after at most [n] steps, writing nothing else *)
Inductive ok {R} (r : R) : nat -> bool -> bool -> prog R -> Prop :=
| O_ret n kh kp : ok r n kh kp (Ret r)
| O_rh n kh kp k : ok r n true kp (k (Some the_headers)) -> (kh = false -> ok r n kh kp (k None)) -> ok r (S n) kh kp (ReadHeaders k)
| O_wh n kh kp k : kh = false -> ok r n true kp k -> ok r (S n) kh kp (WriteHeaders the_headers k)
| O_rp n kh kp k : ok r n kh true (k (Some the_plural)) -> (kp = false -> ok r n kh kp (k None)) -> ok r (S n) kh kp (ReadPlural k)
| O_wp n kh kp k : kp = false -> ok r n kh true k -> ok r (S n) kh kp (WritePlural the_plural k).
Definition sound (s : shared) : Prop :=
  (sh_headers s = None \/ sh_headers s = Some the_headers) /\ (sh_plural s = None \/ sh_plural s = Some the_plural).
(** the fields that are set stay set *)
Definition le (s s' : shared) : Prop :=
  (sh_headers s <> None -> sh_headers s' = sh_headers s) /\ (sh_plural s <> None -> sh_plural s' = sh_plural s).
Definition knows (s : shared) (kh kp : bool) : Prop := (kh = true -> sh_headers s <> None) /\ (kp = true -> sh_plural s <> None).
Definition okay {R} (r : R) (n : nat) (s : shared) (p : prog R) : Prop := exists kh kp, ok r n kh kp p /\ knows s kh kp /\ (set_h = true -> kh = true) /\ (set_p = true -> kp = true).

Lemma ok_step {R} (r : R) n s p s' p' : sound s -> okay r n s p -> step1 s p = Some (s', p') ->
  sound s' /\ (exists n', n = S n' /\ okay r n' s' p') /\ (sh_headers s <> None -> sh_headers s' <> None) /\ (sh_plural s <> None -> sh_plural s' <> None).
Proof.
  intros (Sh & Sp) (kh & kp & O & (Kh & Kp) & Gh & Gp) E. destruct O as [n kh kp|n kh kp k O1 O2|n kh kp k Q O|n kh kp k O1 O2|n kh kp k Q O]; cbn [step1] in E; [discriminate| | | |];
    injection E as <- <-.
  - split; [split; assumption|]. split; [|auto]. exists n. split; [reflexivity|]. destruct Sh as [Sh|Sh]; rewrite Sh.
    + destruct kh; [specialize (Kh eq_refl); contradiction|]. exists false, kp. split; [auto|split; [split; assumption|split; assumption]].
    + exists true, kp. split; [exact O1|split; [split; [rewrite Sh; discriminate|exact Kp]|auto]].
  - split; [split; cbn [sh_headers sh_plural]; auto|]. split; [|split; [discriminate|auto]]. exists n. split; [reflexivity|].
    exists true, kp. split; [exact O|split; [split; cbn [sh_headers sh_plural]; [discriminate|exact Kp]|auto]].
  - split; [split; assumption|]. split; [|auto]. exists n. split; [reflexivity|]. destruct Sp as [Sp|Sp]; rewrite Sp.
    + destruct kp; [specialize (Kp eq_refl); contradiction|]. exists kh, false. split; [auto|split; [split; assumption|split; assumption]].
    + exists kh, true. split; [exact O1|split; [split; [exact Kh|rewrite Sp; discriminate]|auto]].
  - split; [split; cbn [sh_headers sh_plural]; auto|]. split; [|split; [auto|discriminate]]. exists n. split; [reflexivity|].
    exists kh, true. split; [exact O|split; [split; cbn [sh_headers sh_plural]; [exact Kh|discriminate]|auto]].
Qed.
Lemma okay_more {R} (r : R) n s s' p : (sh_headers s <> None -> sh_headers s' <> None) -> (sh_plural s <> None -> sh_plural s' <> None) ->
  okay r n s p -> okay r n s' p.
Proof. intros H1 H2 (kh & kp & O & (K1 & K2) & G). exists kh, kp. split; [exact O|]. split; [split; auto|exact G]. Qed.

(** the calls *)
Lemma the_headers_is : f_headers f = None ->
  match mget (key [] []) (f_entries f) with Some e => parse_headers (e_str e) | None => [] end = the_headers.
Proof. intros E. unfold the_headers, init_header. rewrite E. reflexivity. Qed.
Lemma the_plural_is : f_plural f = None -> parse_plural (or_empty (mget H_plural_forms the_headers)) = the_plural.
Proof. intros E. unfold the_plural, init_plural. rewrite E. unfold get_header. rewrite headers_set. reflexivity. Qed.
Lemma ok_get name n kh kp (r : result) k : (set_h = true -> kh = true) -> (forall n, ok r n true kp (k (mget name the_headers))) ->
  ok r (S (S (S n))) kh kp (get_header_c (f_entries f) name k).
Proof.
  intros Hk O. unfold get_header_c, init_header_c. apply O_rh.
  - apply O_rh; [apply O|discriminate].
  - intros ->. assert (E : f_headers f = None) by (unfold set_h in Hk; destruct (f_headers f); [discriminate (Hk eq_refl)|reflexivity]).
    rewrite (the_headers_is E). apply O_wh; [reflexivity|]. apply O_rh; [apply O|discriminate].
Qed.
Lemma ok_plural n kh kp (r : result) k : (set_h = true -> kh = true) -> (set_p = true -> kp = true) ->
  (forall n kh, ok r n kh true (k (Some the_plural))) -> ok r (S (S (S (S (S (S n)))))) kh kp (get_plural_c (f_entries f) k).
Proof.
  intros Hk Hp O. unfold get_plural_c, init_plural_c. apply O_rp.
  - apply O_rp; [apply O|discriminate].
  - intros ->. assert (E : f_plural f = None) by (unfold set_p in Hp; destruct (f_plural f); [discriminate (Hp eq_refl)|reflexivity]).
    unfold get_header_c, init_header_c.
    assert (W : forall n, ok r (S (S n)) true false (WritePlural (parse_plural (or_empty (mget H_plural_forms the_headers))) (ReadPlural k))).
    { intros m. rewrite (the_plural_is E). apply O_wp; [reflexivity|]. apply O_rp; [apply O|discriminate]. }
    apply O_rh.
    + apply O_rh; [apply W|discriminate].
    + intros ->. assert (E' : f_headers f = None) by (unfold set_h in Hk; destruct (f_headers f); [discriminate (Hk eq_refl)|reflexivity]).
      rewrite (the_headers_is E'). apply O_wh; [reflexivity|]. apply O_rh; [apply W|discriminate].
Qed.
(** several calls *)
Lemma ok_more {R} (r : R) n kh kp p : ok r n kh kp p -> forall m, n <= m -> ok r m kh kp p.
Proof.
  induction 1 as [n kh kp|n kh kp k O1 I1 O2 I2|n kh kp k Q O I|n kh kp k O1 I1 O2 I2|n kh kp k Q O I]; intros m L; [constructor|..];
    (destruct m as [|m]; [lia|]); constructor; auto with arith.
Qed.
Lemma ok_bind {R T} (r : R) (t : T) n m kh kp p k : ok r n kh kp p ->
  (forall kh' kp', (kh = true -> kh' = true) -> (kp = true -> kp' = true) -> ok t m kh' kp' (k r)) -> ok t (n + m) kh kp (bind p k).
Proof.
  induction 1 as [n kh kp|n kh kp g O1 I1 O2 I2|n kh kp g Q O I|n kh kp g O1 I1 O2 I2|n kh kp g Q O I]; intros K; cbn [bind plus].
  - apply ok_more with m; [apply K; auto|lia].
  - apply O_rh; [apply I1; intros; apply K; auto|]. intros ->. apply I2; [reflexivity|exact K].
  - apply O_wh; [exact Q|]. apply I. intros; apply K; auto.
  - apply O_rp; [apply I1; intros; apply K; auto|]. intros ->. apply I2; [reflexivity|exact K].
  - apply O_wp; [exact Q|]. apply I. intros; apply K; auto.
Qed.
Lemma ok_call' (o : call) kh kp : (set_h = true -> kh = true) -> (set_p = true -> kp = true) ->
  ok (the_answer o) 6 kh kp (run_call fmt (f_entries f) o).
Proof.
  intros Hh Hp.
  destruct o as [|name|c i args|c i i2 n args]; cbn [run_call].
  - apply ok_get; [exact Hh|]. intros n. unfold the_answer, lang, get_header. rewrite headers_set. apply O_ret.
  - apply ok_get; [exact Hh|]. intros n. unfold the_answer, get_header. rewrite headers_set. apply O_ret.
  - apply O_ret.
  - unfold the_answer, f_xn64. destruct (mget (key c i) (f_entries f)) as [e|]; [|apply O_ret].
    destruct (is_empty (e_id2 e) && match e_strn e with [] => true | _ :: _ => false end); [apply O_ret|].
    apply (ok_plural 0); [exact Hh|exact Hp|]. intros m kh'. rewrite plural_set.
    destruct (p_total the_plural <=? 0)%Z; [apply O_ret|].
    match goal with |- context [if ?b then _ else _] => destruct b end; [apply O_ret|].
    destruct (nth_error (e_strn e) _) as [s|]; [|apply O_ret]. destruct (is_empty s); apply O_ret.
Qed.
Fixpoint the_answers (os : list call) : list result :=
  match os with
  | [] => []
  | o :: os => match the_answer o with RPanics => [RPanics] | r => r :: the_answers os end
  end.
Lemma ok_calls os : forall kh kp, (set_h = true -> kh = true) -> (set_p = true -> kp = true) ->
  ok (the_answers os) (6 * length os) kh kp (run_calls fmt (f_entries f) os).
Proof.
  induction os as [|o os IH]; intros kh kp Hh Hp; [constructor|]. cbn [run_calls the_answers length].
  replace (6 * S (length os)) with (6 + 6 * length os) by lia.
  apply (ok_bind (the_answer o)); [apply ok_call'; assumption|]. intros kh' kp' Mh Mp.
  destruct (the_answer o) as [s|v|]; [| |constructor].
  - replace (6 * length os) with (6 * length os + 0) by lia. apply (ok_bind (the_answers os)); [apply IH; auto|]. intros; constructor.
  - replace (6 * length os) with (6 * length os + 0) by lia. apply (ok_bind (the_answers os)); [apply IH; auto|]. intros; constructor.
Qed.

(** configurations: each goroutine with its answers and the number of steps it may still make *)
Definition budget (l : list (list result * nat)) : nat := fold_right (fun x n => snd x + n) 0 l.
Lemma budget_app a b : budget (a ++ b) = budget a + budget b.
Proof. induction a as [|x a IH]; [reflexivity|]. cbn [budget fold_right app]. fold (budget (a ++ b)). rewrite IH. unfold budget. lia. Qed.
Definition each (s : shared) (x : list result * nat) (p : prog (list result)) : Prop := okay (fst x) (snd x) s p.
Definition total (oss : list (list (@call A))) : nat := fold_right (fun os n => length os + n) 0 oss.
Lemma steps_inv (oss : list (list call)) n c : steps_c n (shared_of f, map (run_calls fmt (f_entries f)) oss) c ->
  exists l, map fst l = map the_answers oss /\ budget l + n = 6 * total oss /\ sound (fst c) /\ Forall2 (each (fst c)) l (snd c) /\
  (set_h = true -> sh_headers (fst c) <> None) /\ (set_p = true -> sh_plural (fst c) <> None).
Proof.
  intros St. remember (shared_of f, map (run_calls fmt (f_entries f)) oss) as c0 eqn:E0. induction St as [c0|n c0 s a p b s' p' St IH E1]; subst.
  - exists (map (fun os => (the_answers os, 6 * length os)) oss). cbn [fst snd]. split; [rewrite map_map; reflexivity|].
    split; [induction oss as [|o os IH]; [reflexivity|]; cbn [map budget fold_right total snd];
      fold (budget (map (fun os => (the_answers os, 6 * length os)) os)); fold (total os); lia|].
    split.
    { split; cbn [sh_headers sh_plural shared_of].
      - destruct (f_headers f) eqn:E; [right; unfold the_headers, init_header; rewrite E, E; reflexivity|left; reflexivity].
      - destruct (f_plural f) eqn:E; [right; unfold the_plural, init_plural; rewrite E, E; reflexivity|left; reflexivity]. }
    assert (Kh : set_h = true -> sh_headers (shared_of f) <> None) by (unfold set_h; cbn [sh_headers shared_of]; destruct (f_headers f); discriminate).
    assert (Kp : set_p = true -> sh_plural (shared_of f) <> None) by (unfold set_p; cbn [sh_plural shared_of]; destruct (f_plural f); discriminate).
    split; [|split; assumption]. induction oss as [|o os IH]; constructor; [|exact IH].
    exists set_h, set_p. split; [apply ok_calls; auto|split; [split; assumption|auto]].
  - destruct (IH eq_refl) as (l & La & Lb & So & F2 & Kh & Kp). cbn [fst snd] in *.
    apply Forall2_app_inv_r in F2 as (l1 & l2 & F1 & F2 & ->). inversion F2 as [|x p0 l2' b0 Fp Fb]; subst.
    destruct (ok_step _ _ _ _ _ _ So Fp E1) as (So' & (n' & En & O') & M1 & M2).
    exists (l1 ++ (fst x, n') :: l2'). split; [rewrite <- La, !map_app; reflexivity|].
    split; [rewrite budget_app in *; cbn [budget fold_right snd] in *; fold (budget l2') in *; lia|].
    split; [exact So'|]. split; [|split; auto].
    apply Forall2_app; [|constructor; [exact O'|]].
    + clear - F1 M1 M2. induction F1; constructor; [|assumption]. eapply okay_more; eassumption.
    + clear - Fb M1 M2. induction Fb; constructor; [|assumption]. eapply okay_more; eassumption.
Qed.
Lemma done_answer {R} (r : R) n s q : okay r n s (Ret q) -> q = r.
Proof. intros (kh & kp & O & _). inversion O. reflexivity. Qed.
(** fields that are set from the start are not written *)
Lemma no_write {R} (r : R) n s p : okay r n s p ->
  (f_headers f <> None -> forall h k, p <> WriteHeaders h k) /\ (f_plural f <> None -> forall q k, p <> WritePlural q k).
Proof.
  intros (kh & kp & O & _ & Gh & Gp). split; intros N a k ->; inversion O; subst.
  - unfold set_h in Gh. destruct (f_headers f); [|auto]. specialize (Gh eq_refl). discriminate.
  - unfold set_p in Gp. destruct (f_plural f); [|auto]. specialize (Gp eq_refl). discriminate.
Qed.
End Facts.

(** ** lists *)
Lemma Forall2_length' {X Y} {R : X -> Y -> Prop} {a b} : Forall2 R a b -> length a = length b.
Proof. induction 1; cbn [length]; congruence. Qed.
Lemma Forall2_nth {X Y} {R : X -> Y -> Prop} {a b} : Forall2 R a b -> forall {i x y}, nth_error a i = Some x -> nth_error b i = Some y -> R x y.
Proof.
  induction 1 as [|x y a b H F IH]; intros [|i] x' y' Ex Ey; cbn [nth_error] in *; try discriminate.
  - congruence.
  - eapply IH; eassumption.
Qed.
Lemma total_concat {A} (oss : list (list (@call A))) : total oss = length (concat oss).
Proof. induction oss as [|os oss IH]; [reflexivity|]. cbn [total fold_right concat]. fold (total oss). rewrite app_length, IH. reflexivity. Qed.
Lemma answers_the {A} (fmt : bytes -> list A -> bytes) f os : answers fmt f os (the_answers fmt f os).
Proof.
  induction os as [|o os IH]; [constructor|]. cbn [the_answers]. change (the_answer fmt f o) with (alone fmt f o).
  destruct (alone fmt f o) as [s|v|] eqn:E.
  - rewrite <- E. apply An_cons; [rewrite E; discriminate|exact IH].
  - rewrite <- E. apply An_cons; [rewrite E; discriminate|exact IH].
  - apply An_panic, E.
Qed.
Lemma steps_set {A} (fmt : bytes -> list A -> bytes) f oss n c : f_headers f <> None -> f_plural f <> None ->
  steps_c n (shared_of f, map (run_calls fmt (f_entries f)) oss) c -> fst c = shared_of f.
Proof.
  intros H1 H2 St. remember (shared_of f, map (run_calls fmt (f_entries f)) oss) as c0 eqn:E0. induction St as [c0|n c0 s a p b s' p' St IH E1]; subst; [reflexivity|].
  specialize (IH eq_refl). destruct (steps_inv fmt f oss n _ St) as (l & _ & _ & _ & F & _). cbn [fst snd] in *.
  apply Forall2_app_inv_r in F as (l1 & l2 & _ & F & ->). inversion F as [|x p0 l2' b0 Fp Fb]; subst.
  destruct (no_write _ _ _ _ _ Fp) as [W1 W2]. specialize (W1 H1). specialize (W2 H2).
  destruct p; cbn [step1] in E1; [discriminate|congruence|exfalso; eapply W1; reflexivity|congruence|exfalso; eapply W2; reflexivity].
Qed.
Lemma quiet_set {A} (fmt : bytes -> list A -> bytes) f oss n s ps : f_headers f <> None -> f_plural f <> None ->
  steps_c n (shared_of f, map (run_calls fmt (f_entries f)) oss) (s, ps) -> ~ racy ps /\ s = shared_of f.
Proof.
  intros H1 H2 St. split; [|exact (steps_set fmt f oss n _ H1 H2 St)].
  destruct (steps_inv fmt f oss n _ St) as (l & _ & _ & _ & F & _). cbn [fst snd] in F.
  assert (W : forall p, In p ps -> ~ writes_headers p /\ ~ writes_plural p).
  { intros p Ip. clear St. induction F as [|x q l ps Fp F IH]; [destruct Ip|]. destruct Ip as [->|Ip]; [|exact (IH Ip)].
    destruct (no_write _ _ _ _ _ Fp) as [W1 W2]. specialize (W1 H1). specialize (W2 H2).
    split; intros Q; destruct p; try destruct Q; [eapply W1; reflexivity|eapply W2; reflexivity]. }
  intros (a & p & b & q & c & -> & Q).
  assert (Wp : ~ writes_headers p /\ ~ writes_plural p) by (apply W, in_or_app; right; left; reflexivity).
  assert (Wq : ~ writes_headers q /\ ~ writes_plural q).
  { apply W, in_or_app; right; right. apply in_or_app; right; left; reflexivity. }
  unfold race in Q. tauto.
Qed.

(** ** a scheduler: the goroutine with number [i] makes a step *)
Fixpoint sched (is : list nat) (c : config) : option config :=
  match is with
  | [] => Some c
  | i :: is =>
      match nth_error (snd c) i with
      | Some p => match step1 (fst c) p with
                  | Some (s', p') => sched is (s', firstn i (snd c) ++ p' :: skipn (S i) (snd c))
                  | None => None
                  end
      | None => None
      end
  end.
Lemma sched_from is : forall n c0 c c', steps_c n c0 c -> sched is c = Some c' -> steps_c (length is + n) c0 c'.
Proof.
  induction is as [|i is IH]; intros n c0 c c' St E; cbn [sched] in E; [injection E as <-; exact St|].
  destruct (nth_error (snd c) i) as [p|] eqn:Ep; [|discriminate].
  destruct (step1 (fst c) p) as [[s' p']|] eqn:Es; [|discriminate].
  cbn [length]. replace (S (length is) + n) with (length is + S n) by lia.
  refine (IH _ _ _ _ _ E). apply SC_step with (s := fst c) (p := p); [|exact Es].
  assert (Q : snd c = firstn i (snd c) ++ p :: skipn (S i) (snd c)).
  { clear - Ep. revert Ep. generalize (snd c) as l. induction i as [|i IH]; intros [|x l] E; try discriminate; cbn [firstn skipn app nth_error] in *.
    - injection E as ->. reflexivity.
    - f_equal. apply IH, E. }
  rewrite <- Q. destruct c; exact St.
Qed.
Lemma sched_steps is c c' : sched is c = Some c' -> steps_c (length is) c c'.
Proof. intros E. pose proof (sched_from is 0 c c c' (SC_refl c) E) as H. rewrite Nat.add_0_r in H. exact H. Qed.
