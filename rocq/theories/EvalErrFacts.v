(** Proofs about the errors of [plurals.Eval]. *)
From Coq Require Import Lia.
From Verif Require Import GoStr GoStrFacts GoFmt PluralModel PluralSpec PluralLexFacts PluralParseFacts PluralEvalFacts
  PluralTextFacts AtnModel AtnSpec GenModel GenSpec GenFacts ErrModel ErrSpec ErrFacts EvalErrModel EvalErrSpec.
Local Open Scope Z_scope.

(** ** The walk is the calls one after the other *)
Definition fire (n : Z) (c : call) (st : stack * Z) : option (stack * Z) :=
  match c with
  | ExitExp pre bop post => obind (exit_exp pre bop post (fst st)) (fun s => Some (s, snd st))
  | ExitPrimary start text =>
      if beq (snd start) (B "n") then Some (push (fst st) n, snd st)
      else if beq (snd start) (B "(") then Some st
      else match parse_int text with Some v => Some (push (fst st) v, snd st) | None => None end
  | ExitStart => let (v, s) := pop (fst st) in Some (s, v)
  end.
Fixpoint fire_all (n : Z) (l : list call) (st : stack * Z) : option (stack * Z) :=
  match l with [] => Some st | c :: r => obind (fire n c st) (fire_all n r) end.
Lemma fire_app : forall n a b st, fire_all n (a ++ b) st = obind (fire_all n a st) (fire_all n b).
Proof.
  intros n. induction a as [|c a IH]; intros b st; [reflexivity|]. cbn [app fire_all].
  destruct (fire n c st); cbn [obind]; [apply IH|reflexivity].
Qed.
(** induction over trees with children *)
Fixpoint tree_all (P : tree -> Prop)
  (HL : forall t, P (Leaf t))
  (HE : forall a b c cs, Forall P cs -> P (ExpContext a b c cs))
  (HP : forall s cs, Forall P cs -> P (PrimaryContext s cs))
  (HS : forall cs, Forall P cs -> P (StartContext cs)) (t : tree) : P t :=
  let all := fix all (cs : list tree) : Forall P cs :=
    match cs with [] => Forall_nil P | c :: r => Forall_cons c (tree_all P HL HE HP HS c) (all r) end in
  match t with
  | Leaf t => HL t
  | ExpContext a b c cs => HE a b c cs (all cs)
  | PrimaryContext s cs => HP s cs (all cs)
  | StartContext cs => HS cs (all cs)
  end.
Definition gwalks (n : Z) : list tree -> stack * Z -> option (stack * Z) :=
  fix all (cs : list tree) (st : stack * Z) : option (stack * Z) :=
    match cs with [] => Some st | c :: r => obind (gwalk n c st) (fun st => all r st) end.
Lemma gwalks_calls : forall n cs, Forall (fun t => forall st, gwalk n t st = fire_all n (calls t) st) cs ->
  forall st, gwalks n cs st = fire_all n (flat_map calls cs) st.
Proof.
  induction 1 as [|c cs H _ IH]; intros st; [reflexivity|].
  change (gwalks n (c :: cs) st) with (obind (gwalk n c st) (fun st => gwalks n cs st)).
  cbn [flat_map]. rewrite fire_app, H.
  destruct (fire_all n (calls c) st); cbn [obind]; [apply IH|reflexivity].
Qed.
Lemma gwalk_calls : forall n t st, gwalk n t st = fire_all n (calls t) st.
Proof.
  intros n. refine (tree_all _ _ _ _ _).
  - reflexivity.
  - intros a b c cs H st.
    change (gwalk n (ExpContext a b c cs) st) with
      (obind (gwalks n cs st) (fun st => obind (exit_exp a b c (fst st)) (fun s => Some (s, snd st)))).
    cbn [calls]. rewrite fire_app, (gwalks_calls n cs H st).
    destruct (fire_all n (flat_map calls cs) st) as [st'|]; cbn [obind fire_all fire]; [|reflexivity].
    destruct (exit_exp a b c (fst st')); reflexivity.
  - intros s cs H st.
    change (gwalk n (PrimaryContext s cs) st) with
      (obind (gwalks n cs st) (fun st => obind (exit_primary n s cs (fst st)) (fun s => Some (s, snd st)))).
    cbn [calls]. rewrite fire_app, (gwalks_calls n cs H st).
    destruct (fire_all n (flat_map calls cs) st) as [[st' v]|]; cbn [obind fire_all fire fst snd]; [|reflexivity].
    unfold exit_primary. destruct (beq (snd s) (B "n")); [reflexivity|].
    destruct (beq (snd s) (B "(")); [reflexivity|]. destruct (parse_int (flat_map get_text cs)); reflexivity.
  - intros cs H st.
    change (gwalk n (StartContext cs) st) with
      (obind (gwalks n cs st) (fun st => let (v, s) := pop (fst st) in Some (s, v))).
    cbn [calls]. rewrite fire_app, (gwalks_calls n cs H st).
    destruct (fire_all n (flat_map calls cs) st) as [[st' v]|]; cbn [obind fire_all fire fst snd]; [|reflexivity].
    destruct (pop st'); reflexivity.
Qed.

(** ** The finished part *)
Definition same_part (r : pres exp) (k : part) : Prop :=
  match r, k with
  | POk e r, Whole e' r' => e' = e /\ r' = r
  | PErr, Broken _ => True
  | PFuel, NoFuel => True
  | _, _ => False
  end.
Lemma parts : forall f, (forall p ts, same_part (pexp f p ts) (kexp f p ts)) /\
  (forall p l ts, same_part (ploop f p l ts) (kloop f p l ts)).
Proof.
  induction f as [|f [IHe IHl]]; [split; intros; exact I|].
  assert (IH2 : forall p ts, kexp f p ts = match pexp f p ts with
     | POk e r => Whole e r | PErr => Broken (match kexp f p ts with Broken l => l | _ => [] end) | PFuel => NoFuel end).
  { intros p ts. pose proof (IHe p ts) as H. unfold same_part in H.
    destruct (pexp f p ts), (kexp f p ts); try contradiction; try reflexivity. destruct H as [-> ->]. reflexivity. }
  split.
  - intros p ts. cbn [pexp kexp].
    destruct ts as [|t r]; [exact I|].
    assert (PRE : same_part
      match pre_tok t with
      | Some (o, q) => match pexp f q r with POk e r' => ploop f p (EPre o e) r' | PErr => PErr | PFuel => PFuel end
      | None => PErr end
      match pre_tok t with
      | Some (o, q) => match kexp f q r with Whole e r' => kloop f p (EPre o e) r' | x => x end
      | None => Broken [] end).
    { destruct (pre_tok t) as [[o q]|]; [|exact I]. rewrite (IH2 q r).
      destruct (pexp f q r) as [e r'| |]; [apply IHl|exact I|exact I]. }
    destruct t; try exact PRE; try apply IHl.
    rewrite (IH2 0%nat r). destruct (pexp f 0 r) as [e [|[] r']| |]; try exact I. apply IHl.
  - intros p l ts. cbn [ploop kloop]. destruct ts as [|t r]; [split; reflexivity|].
    assert (OP : same_part
      match post_tok t with
      | Some o => if Nat.leb p 15 then ploop f p (EPost o l) r else POk l (t :: r)
      | None => match bin_tok t with
                | Some (o, k) => if Nat.leb p k then
                     match pexp f (S k) r with POk b r' => ploop f p (EBin o l b) r' | PErr => PErr | PFuel => PFuel end
                     else POk l (t :: r)
                | None => POk l (t :: r) end
      end
      match post_tok t with
      | Some o => if Nat.leb p 15 then kloop f p (EPost o l) r else Whole l (t :: r)
      | None => match bin_tok t with
                | Some (o, k) => if Nat.leb p k then
                     match kexp f (S k) r with Whole b r' => kloop f p (EBin o l b) r'
                     | Broken x => Broken (calls (tree_of l) ++ x) | NoFuel => NoFuel end
                     else Whole l (t :: r)
                | None => Whole l (t :: r) end
      end).
    { destruct (post_tok t) as [o|].
      - destruct (Nat.leb p 15); [apply IHl|split; reflexivity].
      - destruct (bin_tok t) as [[o k]|]; [|split; reflexivity].
        destruct (Nat.leb p k); [|split; reflexivity]. rewrite (IH2 (S k) r).
        destruct (pexp f (S k) r) as [e r'| |]; [apply IHl|exact I|exact I]. }
    destruct t; try exact OP; [|exact I].
    destruct (Nat.leb p 1); [|split; reflexivity].
    rewrite (IH2 0%nat r). destruct (pexp f 0 r) as [b [|[] r']| |]; try exact I.
    rewrite (IH2 1%nat r'). destruct (pexp f 1 r') as [c r''| |]; [apply IHl|exact I|exact I].
Qed.
Lemma kexp_ok : forall f p ts e r, pexp f p ts = POk e r -> kexp f p ts = Whole e r.
Proof.
  intros f p ts e r H. pose proof (proj1 (parts f) p ts) as P. rewrite H in P.
  destruct (kexp f p ts); cbn in P; try contradiction. destruct P as [-> ->]. reflexivity.
Qed.
Lemma kexp_err : forall f p ts, pexp f p ts = PErr -> exists l, kexp f p ts = Broken l.
Proof.
  intros f p ts H. pose proof (proj1 (parts f) p ts) as P. rewrite H in P.
  destruct (kexp f p ts); cbn in P; try contradiction. eexists. reflexivity.
Qed.
(** what is finished stays in front *)
Lemma kloop_front : forall f p l ts c, kloop f p l ts = Broken c -> exists x, c = calls (tree_of l) ++ x.
Proof.
  induction f as [|f IH]; intros p l ts c H; [discriminate|]. cbn [kloop] in H.
  assert (D : forall m e, kloop f p m e = Broken c -> (exists y, calls (tree_of m) = calls (tree_of l) ++ y) ->
    exists x, c = calls (tree_of l) ++ x).
  { intros m e K [y Y]. destruct (IH _ _ _ _ K) as [x ->]. rewrite Y, <- app_assoc. eexists. reflexivity. }
  assert (B : forall y, Broken (calls (tree_of l) ++ y) = Broken c -> exists x, c = calls (tree_of l) ++ x).
  { intros y K. injection K as <-. eexists. reflexivity. }
  destruct ts as [|t r]; [discriminate|].
  assert (OP : match post_tok t with
      | Some o => if Nat.leb p 15 then kloop f p (EPost o l) r else Whole l (t :: r)
      | None => match bin_tok t with
                | Some (o, k) => if Nat.leb p k then
                     match kexp f (S k) r with Whole b r' => kloop f p (EBin o l b) r'
                     | Broken x => Broken (calls (tree_of l) ++ x) | NoFuel => NoFuel end
                     else Whole l (t :: r)
                | None => Whole l (t :: r) end
      end = Broken c -> exists x, c = calls (tree_of l) ++ x).
  { clear H. destruct (post_tok t) as [o|].
    - destruct (Nat.leb p 15); [|discriminate]. intros K. apply (D _ _ K).
      cbn [tree_of calls flat_map]. rewrite <- app_assoc. eexists. reflexivity.
    - destruct (bin_tok t) as [[o k]|]; [|discriminate]. destruct (Nat.leb p k); [|discriminate].
      destruct (kexp f (S k) r) as [e r'|x|]; [|apply B|discriminate].
      intros K. apply (D _ _ K). cbn [tree_of calls flat_map leaf]. rewrite <- app_assoc. eexists. reflexivity. }
  destruct t; try exact (OP H); clear OP.
  - destruct (Nat.leb p 1); [|discriminate].
    destruct (kexp f 0 r) as [b r'|x|]; [|apply (B _ H)|discriminate].
    destruct r' as [|t r']; [apply (B _ H)|]. destruct t; try apply (B _ H).
    destruct (kexp f 1 r') as [e r''|x|]; [|apply (B _ H)|discriminate].
    apply (D _ _ H). cbn [tree_of calls flat_map leaf]. rewrite <- app_assoc. eexists. reflexivity.
  - apply (B _ H).
Qed.
Lemma k_mono : forall f p ts e r, pexp f p ts = POk e r -> forall f', (f <= f')%nat -> kexp f' p ts = Whole e r.
Proof.
  intros f p ts e r H f' L. apply kexp_ok. rewrite (proj1 (parse_mono f) p ts) by (try congruence; exact L). exact H.
Qed.
Lemma kexp_enough : forall f p ts l, (length ts < f)%nat -> kexp f p ts = Broken l ->
  forall f', (f <= f')%nat -> exists l', kexp f' p ts = Broken l'.
Proof.
  intros f p ts l Hf H f' L. apply kexp_err. pose proof (proj1 (parts f) p ts) as P. rewrite H in P.
  rewrite (proj1 (parse_mono f) p ts) by (try exact L; destruct (pexp f p ts); cbn in P; try contradiction; discriminate).
  destruct (pexp f p ts); cbn in P; try contradiction. reflexivity.
Qed.
Lemma lex_open : forall s, lex ("("%char :: s) = KLP :: lex s.
Proof. intros [|c s]; [reflexivity|]. cbn [lex]. reflexivity. Qed.
(** the expression a text opens with is the front of what is finished *)
Lemma opens_front : forall e s, opens_with e s -> forall f, (2 * length (lex s) + 2 <= f)%nat ->
  (exists r, kexp f 0 (lex s) = Whole e r) \/
  (exists e' r y, kexp f 0 (lex s) = Whole e' r /\ calls (tree_of e') = calls (tree_of e) ++ y) \/
  (exists y, kexp f 0 (lex s) = Broken (calls (tree_of e) ++ y)).
Proof.
  intros e s H. induction H as [s A|s _ IH]; intros f Hf.
  - left. apply parse_iff_accepts in A as [r P]. exists r. exact (k_mono _ _ _ _ _ P f Hf).
  - rewrite lex_open in *. cbn [length] in Hf. destruct f as [|f]; [lia|].
    assert (Hf' : (2 * length (lex s) + 2 <= f)%nat) by lia. specialize (IH f Hf').
    assert (W : forall e' r y, kexp f 0 (lex s) = Whole e' r -> calls (tree_of e') = calls (tree_of e) ++ y ->
      (exists r, kexp (S f) 0 (KLP :: lex s) = Whole e r) \/
      (exists e' r y, kexp (S f) 0 (KLP :: lex s) = Whole e' r /\ calls (tree_of e') = calls (tree_of e) ++ y) \/
      (exists y, kexp (S f) 0 (KLP :: lex s) = Broken (calls (tree_of e) ++ y))).
    { intros e' r y K Y. right. cbn [kexp]. rewrite K.
      destruct r as [|t r]; [right; exists y; congruence|].
      assert (P : exists z, calls (tree_of (EParen e')) = calls (tree_of e) ++ z).
      { cbn [tree_of calls flat_map leaf]. rewrite Y, <- !app_assoc. eexists. reflexivity. }
      destruct P as [z Z].
      destruct t; try (right; exists y; congruence).
      destruct (kloop f 0 (EParen e') r) as [e2 r2|c|] eqn:E.
      - left. exists e2, r2.
        assert (G : forall f p l ts e r, kloop f p l ts = Whole e r -> exists x, calls (tree_of e) = calls (tree_of l) ++ x).
        { clear. induction f as [|f IH]; intros p l ts e r H; [discriminate|]. cbn [kloop] in H.
          assert (ID : exists x, calls (tree_of l) = calls (tree_of l) ++ x) by (exists []; rewrite app_nil_r; reflexivity).
          assert (D : forall m ts, kloop f p m ts = Whole e r -> (exists y, calls (tree_of m) = calls (tree_of l) ++ y) ->
            exists x, calls (tree_of e) = calls (tree_of l) ++ x).
          { intros m ts' K [y Y]. destruct (IH _ _ _ _ _ K) as [x ->]. rewrite Y, <- app_assoc. eexists. reflexivity. }
          assert (SAME : forall ts, Whole l ts = Whole e r -> exists x, calls (tree_of e) = calls (tree_of l) ++ x).
          { intros ts' K. injection K as <- _. exact ID. }
          destruct ts as [|t r']; [apply (SAME _ H)|].
          assert (OP : match post_tok t with
              | Some o => if Nat.leb p 15 then kloop f p (EPost o l) r' else Whole l (t :: r')
              | None => match bin_tok t with
                        | Some (o, k) => if Nat.leb p k then
                             match kexp f (S k) r' with Whole b r' => kloop f p (EBin o l b) r'
                             | Broken x => Broken (calls (tree_of l) ++ x) | NoFuel => NoFuel end
                             else Whole l (t :: r')
                        | None => Whole l (t :: r') end
              end = Whole e r -> exists x, calls (tree_of e) = calls (tree_of l) ++ x).
          { clear H. destruct (post_tok t) as [o|].
            - destruct (Nat.leb p 15); [|apply SAME]. intros K. apply (D _ _ K).
              cbn [tree_of calls flat_map]. rewrite <- app_assoc. eexists. reflexivity.
            - destruct (bin_tok t) as [[o k]|]; [|apply SAME]. destruct (Nat.leb p k); [|apply SAME].
              destruct (kexp f (S k) r') as [e' r''|x|]; [|discriminate|discriminate].
              intros K. apply (D _ _ K). cbn [tree_of calls flat_map leaf]. rewrite <- app_assoc. eexists. reflexivity. }
          destruct t; try exact (OP H); clear OP; [|discriminate].
          destruct (Nat.leb p 1); [|apply (SAME _ H)].
          destruct (kexp f 0 r') as [b r''|x|]; [|discriminate|discriminate].
          destruct r'' as [|t r'']; [discriminate|]. destruct t; try discriminate.
          destruct (kexp f 1 r'') as [e' r3|x|]; [|discriminate|discriminate].
          apply (D _ _ H). cbn [tree_of calls flat_map leaf]. rewrite <- app_assoc. eexists. reflexivity. }
        destruct (G _ _ _ _ _ _ E) as [x X]. exists (z ++ x). split; [reflexivity|]. rewrite X, Z, app_assoc. reflexivity.
      - right. destruct (kloop_front _ _ _ _ _ E) as [x ->]. exists (z ++ x). rewrite Z, <- app_assoc. reflexivity.
      - exfalso. pose proof (proj1 (parts (S f)) 0%nat (KLP :: lex s)) as Q. cbn [kexp] in Q. rewrite K, E in Q.
        pose proof (proj1 (parse_fuel (S f)) 0%nat (KLP :: lex s)) as R. cbn [length] in R.
        destruct (R ltac:(lia)) as [R1 _].
        destruct (pexp (S f) 0 (KLP :: lex s)); cbn in Q; contradiction. }
    destruct IH as [[r K]|[(e' & r & y & K & Y)|[y K]]].
    + refine (W e r [] K _). rewrite app_nil_r. reflexivity.
    + exact (W e' r y K Y).
    + right; right. exists y. cbn [kexp]. rewrite K. reflexivity.
Qed.
Lemma rejected_front : forall e s, opens_with e s -> (forall e', ~ accepts s e') ->
  exists y, finished s = calls (tree_of e) ++ y.
Proof.
  intros e s O R. unfold finished.
  destruct (opens_front e s O _ (le_n _)) as [[r K]|[(e' & r & y & K & Y)|[y K]]].
  1, 2: exfalso.
  - pose proof (proj1 (parts (2 * length (lex s) + 2)) 0%nat (lex s)) as P. rewrite K in P.
    fold (parse_start (lex s)) in P. destruct (parse_start (lex s)) as [e' r'| |] eqn:E; cbn in P; try contradiction.
    apply (R e'). apply parse_iff_accepts. exists r'. exact E.
  - pose proof (proj1 (parts (2 * length (lex s) + 2)) 0%nat (lex s)) as P. rewrite K in P.
    fold (parse_start (lex s)) in P. destruct (parse_start (lex s)) as [e2 r'| |] eqn:E; cbn in P; try contradiction.
    apply (R e2). apply parse_iff_accepts. exists r'. exact E.
  - rewrite K. exists y. reflexivity.
Qed.
Lemma opens_lits : forall e s, opens_with e s -> lits_ok e.
Proof. intros e s H. induction H as [s A|s _ IH]; [exact (accepts_lits s e A)|exact IH]. Qed.
(** a tree with a faulting expression in front makes the walk panic *)
Lemma front_panics : forall n e t y, int64 n -> lits_ok e -> faults n e -> calls t = calls (tree_of e) ++ y ->
  forall st, gwalk n t st = None.
Proof.
  intros n e t y Hn L F C [s v]. rewrite gwalk_calls, C, fire_app, <- gwalk_calls, (gwalk_is n e s v L).
  destruct (walk_spec n e Hn L) as [(u & V & _)|[_ K]].
  - destruct (val_not_faults _ _ _ Hn L V F).
  - rewrite K. reflexivity.
Qed.

(** ** Common expressions *)
Lemma known_iff : forall s, known s <-> exists f, assoc_bytes (remove_byte SP s) commons = Some f.
Proof.
  intros s. unfold known. induction commons as [|[k v] l IH].
  - split; [intros [f []]|intros [f H]; discriminate].
  - cbn [assoc_bytes In]. destruct (beq (remove_byte SP s) k) eqn:E.
    + split; [intros _; eexists; reflexivity|]. intros _. apply beq_eq in E. exists v. left. congruence.
    + split.
      * intros [f [H|H]]; [|apply IH; exists f; exact H].
        assert (X : k = remove_byte SP s) by congruence. rewrite <- X, beq_refl in E. discriminate.
      * intros H. apply IH in H as [f H]. exists f. right. exact H.
Qed.
