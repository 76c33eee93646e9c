(** The parser accepts exactly the derivations of the stratified grammar. *)
From Verif Require Import GoStr GoStrFacts PluralModel PluralSpec PluralLexFacts.
From Coq Require Import Lia ZifyBool ZifyNat ZifyN.

(** ** Fuel *)
Lemma parse_fuel : forall f,
  (forall p ts, length ts < f -> pexp f p ts <> PFuel
     /\ forall e r, pexp f p ts = POk e r -> length r < length ts)
  /\ (forall p l ts, length ts < f -> ploop f p l ts <> PFuel
     /\ forall e r, ploop f p l ts = POk e r -> length r <= length ts).
Proof.
  induction f as [|f [IHe IHl]]; [split; intros; lia|]. split.
  - intros p ts L. cbn [pexp]. destruct ts as [|t r]; [split; discriminate|].
    cbn [length] in L.
    assert (A : forall e0, ploop f p e0 r <> PFuel /\
       forall e r0, ploop f p e0 r = POk e r0 -> length r0 < length (t :: r)).
    { intros e0. destruct (IHl p e0 r) as [H1 H2]; [lia|]. split; [exact H1|].
      intros e r0 H. apply H2 in H. cbn; lia. }
    assert (C : match pre_tok t with
          | Some (o, q) => match pexp f q r with
              | POk e r' => ploop f p (EPre o e) r' | PErr => PErr | PFuel => PFuel end
          | None => PErr end <> PFuel /\
       forall e r0, match pre_tok t with
          | Some (o, q) => match pexp f q r with
              | POk e r' => ploop f p (EPre o e) r' | PErr => PErr | PFuel => PFuel end
          | None => PErr end = POk e r0 -> length r0 < length (t :: r)).
    { destruct (pre_tok t) as [[o q]|]; [|split; discriminate].
      destruct (IHe q r) as [H1 H2]; [lia|].
      destruct (pexp f q r) as [e r'| |]; [|split; discriminate|congruence].
      specialize (H2 _ _ eq_refl).
      destruct (IHl p (EPre o e) r') as [H3 H4]; [lia|]. split; [exact H3|].
      intros e1 r1 H. apply H4 in H. cbn; lia. }
    destruct t; try exact C; try apply A.
    destruct (IHe 0 r) as [H1 H2]; [lia|].
    destruct (pexp f 0 r) as [e r'| |]; [|split; discriminate|congruence].
    specialize (H2 _ _ eq_refl). destruct r' as [|[] r']; try (split; discriminate).
    cbn [length] in H2. destruct (IHl p (EParen e) r') as [H3 H4]; [lia|]. split; [exact H3|].
    intros e1 r1 H. apply H4 in H. cbn; lia.
  - intros p l ts L. cbn [ploop]. destruct ts as [|t r].
    { split; [discriminate|]. intros e r H. injection H as <- <-. lia. }
    cbn [length] in L.
    assert (C : forall o k, (if Nat.leb p k then
                    match pexp f (S k) r with
                    | POk b r' => ploop f p (EBin o l b) r'
                    | PErr => PErr | PFuel => PFuel end
                  else POk l (t :: r)) <> PFuel /\
        forall e r0, (if Nat.leb p k then
                    match pexp f (S k) r with
                    | POk b r' => ploop f p (EBin o l b) r'
                    | PErr => PErr | PFuel => PFuel end
                  else POk l (t :: r)) = POk e r0 -> length r0 <= length (t :: r)).
    { intros o k. destruct (Nat.leb p k).
      - destruct (IHe (S k) r) as [H1 H2]; [lia|].
        destruct (pexp f (S k) r) as [e r'| |]; [|split; discriminate|congruence].
        specialize (H2 _ _ eq_refl).
        destruct (IHl p (EBin o l e) r') as [H3 H4]; [lia|]. split; [exact H3|].
        intros e1 r1 H. apply H4 in H. cbn; lia.
      - split; [discriminate|]. intros e r0 H; injection H as <- <-; lia. }
    assert (Q : forall o, (if Nat.leb p 15 then ploop f p (EPost o l) r else POk l (t :: r)) <> PFuel
       /\ forall e r0, (if Nat.leb p 15 then ploop f p (EPost o l) r else POk l (t :: r)) = POk e r0 ->
            length r0 <= length (t :: r)).
    { intros o. destruct (Nat.leb p 15).
      - destruct (IHl p (EPost o l) r) as [H3 H4]; [lia|]. split; [exact H3|].
        intros e1 r1 H. apply H4 in H. cbn; lia.
      - split; [discriminate|]. intros e r0 H; injection H as <- <-; lia. }
    assert (Z : POk l (t :: r) <> PFuel /\ forall e r0, POk l (t :: r) = POk e r0 -> length r0 <= length (t :: r)).
    { split; [discriminate|]. intros e r0 H; injection H as <- <-; lia. }
    destruct t; try apply C; try apply Q; try exact Z; try (split; discriminate).
    destruct (Nat.leb p 1); [|exact Z].
    destruct (IHe 0 r) as [H1 H2]; [lia|].
    destruct (pexp f 0 r) as [b r'| |]; [|split; discriminate|congruence].
    specialize (H2 _ _ eq_refl). destruct r' as [|[] r']; try (split; discriminate).
    cbn [length] in H2.
    destruct (IHe 1 r') as [H3 H4]; [lia|].
    destruct (pexp f 1 r') as [c r''| |]; [|split; discriminate|congruence].
    specialize (H4 _ _ eq_refl).
    destruct (IHl p (ECond l b c) r'') as [H5 H6]; [lia|]. split; [exact H5|].
    intros e1 r1 H. apply H6 in H. cbn; lia.
Qed.

Lemma parse_mono : forall f,
  (forall p ts, pexp f p ts <> PFuel -> forall f', f <= f' -> pexp f' p ts = pexp f p ts)
  /\ (forall p l ts, ploop f p l ts <> PFuel -> forall f', f <= f' -> ploop f' p l ts = ploop f p l ts).
Proof.
  induction f as [|f [IHe IHl]]; [split; cbn; congruence|]. split.
  - intros p ts H f' Hf. destruct f' as [|f']; [lia|]. assert (Hf' : f <= f') by lia.
    cbn [pexp] in *. destruct ts as [|t r]; [reflexivity|].
    destruct t; try (apply IHl; assumption); try reflexivity;
    cbn [pre_tok] in *;
    match type of H with
    | match pexp f ?q ?r with _ => _ end <> _ =>
        destruct (pexp f q r) as [e r'| |] eqn:E; [| |congruence];
        rewrite (IHe q r) by (rewrite ?E; (discriminate || assumption)); rewrite E;
        [|reflexivity]
    | _ => idtac
    end;
    try (apply IHl; assumption).
    destruct r' as [|[] r']; try reflexivity. apply IHl; assumption.
  - intros p l ts H f' Hf. destruct f' as [|f']; [lia|]. assert (Hf' : f <= f') by lia.
    cbn [ploop] in *. destruct ts as [|t r]; [reflexivity|].
    destruct t; cbn [post_tok bin_tok] in *; try reflexivity;
    match type of H with
    | (if ?b then _ else _) <> _ => destruct b; [|reflexivity]
    end;
    try (apply IHl; assumption);
    match type of H with
    | match pexp f ?q ?r with _ => _ end <> _ =>
        destruct (pexp f q r) as [e r'| |] eqn:E; [| |congruence];
        rewrite (IHe q r) by (rewrite ?E; (discriminate || assumption)); rewrite E;
        [|reflexivity]
    | _ => idtac
    end;
    try (apply IHl; assumption).
    destruct r' as [|[] r']; try reflexivity.
    match type of H with
    | match pexp f ?q ?r with _ => _ end <> _ =>
        destruct (pexp f q r) as [e' r''| |] eqn:E'; [| |congruence];
        rewrite (IHe q r) by (rewrite ?E'; (discriminate || assumption)); rewrite E';
        [|reflexivity]
    end.
    apply IHl; assumption.
Qed.

Lemma parse_start_fuel ts : parse_start ts <> PFuel.
Proof. unfold parse_start. apply parse_fuel. lia. Qed.

(** ** Which tokens continue an expression *)
Definition prec (t : tok) : option nat :=
  match t with
  | KQ => Some 1
  | KInc | KDec => Some 14
  | _ => match bin_tok t with Some (_, k) => Some k | None => None end
  end.
Definition lt_head (p : nat) (ts : list tok) : Prop :=
  match ts with
  | [] => True
  | t :: _ => match prec t with Some k => k < p | None => True end
  end.
Definition noerr (ts : list tok) : Prop := match ts with KErr :: _ => False | _ => True end.
Definition lim (k : nat) : nat := if Nat.leb k 1 then 1 else S k.

Lemma lt_head_mono p q ts : p <= q -> lt_head p ts -> lt_head q ts.
Proof.
  intros H. destruct ts as [|t r]; [trivial|]. cbn. destruct (prec t); [lia|trivial].
Qed.
Lemma lim_mono k : lim k <= lim (S k).
Proof. unfold lim. destruct (Nat.leb_spec k 1), (Nat.leb_spec (S k) 1); lia. Qed.

Lemma bin_level_iff t o k : bin_level t o k <-> bin_tok t = Some (o, k).
Proof.
  split.
  - intros []; reflexivity.
  - destruct t; cbn; intros H; try discriminate; injection H as <- <-; constructor.
Qed.
Lemma pre_level_iff t o : pre_level t o <-> exists q, pre_tok t = Some (o, q).
Proof.
  split.
  - intros []; eexists; reflexivity.
  - intros [q H]. destruct t; cbn in H; try discriminate; injection H as <- _; constructor.
Qed.
Lemma post_level_iff t o : post_level t o <-> post_tok t = Some o.
Proof.
  split.
  - intros []; reflexivity.
  - destruct t; cbn; intros H; try discriminate; injection H as <-; constructor.
Qed.
Lemma pre_tok_prec t o q : pre_tok t = Some (o, q) -> q = 13 \/ q = 14.
Proof. destruct t; cbn; intros H; try discriminate; injection H as _ <-; auto. Qed.
Lemma bin_tok_prec t o k : bin_tok t = Some (o, k) -> 2 <= k <= 12 /\ prec t = Some k.
Proof. destruct t; cbn; intros H; try discriminate; injection H as _ <-; split; auto; lia. Qed.

(** ** Completeness *)
Definition PE p ts r := exists f0, forall f, f0 <= f -> pexp f p ts = r.
Definition PL p l ts r := exists f0, forall f, f0 <= f -> ploop f p l ts = r.

Lemma PL_stop p l ts : p <= 14 -> lt_head p ts -> noerr ts -> PL p l ts (POk l ts).
Proof.
  intros Hp H1 H2. exists 1. intros [|f] Hf; [lia|]. cbn [ploop].
  destruct ts as [|t r]; [reflexivity|].
  destruct t; cbn [lt_head noerr prec bin_tok post_tok] in H1, H2 |- *; try reflexivity; try contradiction;
    try lia;
    match goal with
    | |- (if Nat.leb p ?k then _ else _) = _ => destruct (Nat.leb_spec p k); [lia|reflexivity]
    | |- _ => idtac
    end.
Qed.
Lemma PL_bin p l t o k r b r' res :
  bin_tok t = Some (o, k) -> p <= k -> PE (S k) r (POk b r') -> PL p (EBin o l b) r' res ->
  PL p l (t :: r) res.
Proof.
  intros Ht Hp [f1 H1] [f2 H2]. exists (S (f1 + f2)). intros [|f] Hf; [lia|].
  assert (E : ploop (S f) p l (t :: r) =
     if Nat.leb p k then match pexp f (S k) r with
                    | POk b r' => ploop f p (EBin o l b) r'
                    | PErr => PErr | PFuel => PFuel end else POk l (t :: r)).
  { destruct t; cbn in Ht; try discriminate; injection Ht as <- <-; reflexivity. }
  rewrite E. destruct (Nat.leb_spec p k); [|lia]. rewrite H1 by lia. apply H2. lia.
Qed.
Lemma PL_post p l t o r res :
  post_tok t = Some o -> p <= 15 -> PL p (EPost o l) r res -> PL p l (t :: r) res.
Proof.
  intros Ht Hp [f2 H2]. exists (S f2). intros [|f] Hf; [lia|].
  assert (E : ploop (S f) p l (t :: r) = if Nat.leb p 15 then ploop f p (EPost o l) r else POk l (t :: r)).
  { destruct t; cbn in Ht; try discriminate; injection Ht as <-; reflexivity. }
  rewrite E. destruct (Nat.leb_spec p 15); [|lia]. apply H2. lia.
Qed.
Lemma PL_cond p l r b c r' r'' res :
  p <= 1 -> PE 0 r (POk b (KColon :: r')) -> PE 1 r' (POk c r'') ->
  PL p (ECond l b c) r'' res -> PL p l (KQ :: r) res.
Proof.
  intros Hp [f1 H1] [f2 H2] [f3 H3]. exists (S (f1 + f2 + f3)). intros [|f] Hf; [lia|].
  cbn [ploop]. destruct (Nat.leb_spec p 1); [|lia].
  rewrite H1 by lia. rewrite H2 by lia. apply H3. lia.
Qed.
Lemma PE_pre p t o q r e r' res :
  pre_tok t = Some (o, q) -> PE q r (POk e r') -> PL p (EPre o e) r' res -> PE p (t :: r) res.
Proof.
  intros Ht [f1 H1] [f2 H2]. exists (S (f1 + f2)). intros [|f] Hf; [lia|].
  assert (E : pexp (S f) p (t :: r) =
     match pexp f q r with POk e r' => ploop f p (EPre o e) r' | PErr => PErr | PFuel => PFuel end).
  { destruct t; cbn in Ht; try discriminate; injection Ht as <- <-; reflexivity. }
  rewrite E, H1 by lia. apply H2. lia.
Qed.
Lemma PE_paren p r e r' res :
  PE 0 r (POk e (KRP :: r')) -> PL p (EParen e) r' res -> PE p (KLP :: r) res.
Proof.
  intros [f1 H1] [f2 H2]. exists (S (f1 + f2)). intros [|f] Hf; [lia|].
  cbn [pexp]. rewrite H1 by lia. apply H2. lia.
Qed.

Lemma gram_range k w e : gram k w e -> 1 <= k <= 15.
Proof.
  induction 1; lia.
Qed.

Lemma complete k w e : gram k w e -> forall p rest res,
  (p <= k \/ 13 <= k) -> p <= 14 -> lt_head (lim k) rest -> noerr rest ->
  PL p e rest res -> PE p (w ++ rest) res.
Proof.
  induction 1 as [t o k w1 w2 a b Ht Ha IHa Hb IHb
                 |w1 w2 w3 a b c Ha IHa Hb IHb Hc IHc|t o w e Ht H IH|t o w e Ht H IH
                 |w e H IH| |ds|k w e H1 H2 H IH]; intros p rest res Hp Hp14 Hs Hn HL.
  - apply bin_level_iff in Ht. destruct (bin_tok_prec _ _ _ Ht) as [Hk Hpr].
    rewrite <- app_assoc. cbn [app].
    assert (Hl : lim k = S k) by (unfold lim; destruct (Nat.leb_spec k 1); lia).
    apply IHa; auto; [|destruct t; try exact I; discriminate Ht|].
    + cbn. rewrite Hpr, Hl. lia.
    + rewrite Hl in Hs. eapply PL_bin; [exact Ht|lia| |exact HL].
      apply IHb; auto; try lia.
      * eapply lt_head_mono; [|exact Hs]. unfold lim. destruct (Nat.leb_spec (S k) 1); lia.
      * apply PL_stop; (assumption || lia).
  - rewrite <- app_assoc. cbn [app]. rewrite <- app_assoc. cbn [app].
    apply IHa; auto; [lia|cbn; lia|exact I|].
    eapply PL_cond; [lia| | |exact HL].
    + apply IHb; auto; try lia; try exact I. apply PL_stop; (exact I || lia).
    + apply IHc; auto; try lia. apply PL_stop; (assumption || lia).
  - apply pre_level_iff in Ht as [q Ht]. pose proof (pre_tok_prec _ _ _ Ht) as Hq.
    cbn [app]. eapply PE_pre; [exact Ht| |exact HL].
    apply IH; auto; [lia|]. apply PL_stop; [lia| |assumption].
    destruct Hq as [-> | ->]; [|exact Hs].
    (* no token has precedence 13 *)
    cbn in Hs. destruct rest as [|t' r']; [exact I|].
    destruct t'; cbn in Hs |- *; auto; lia.
  - apply post_level_iff in Ht. rewrite <- app_assoc. cbn [app].
    apply IH; auto.
    + destruct t; cbn in Ht; try discriminate; cbn; lia.
    + destruct t; try exact I; discriminate Ht.
    + eapply PL_post; [exact Ht|lia|exact HL].
  - cbn [app]. rewrite <- app_assoc. cbn [app]. eapply PE_paren; [|exact HL].
    apply IH; try lia; try exact I. apply PL_stop; (exact I || lia).
  - destruct HL as [f HL]. exists (S f). intros [|f'] Hf; [lia|]. apply HL. lia.
  - destruct HL as [f HL]. exists (S f). intros [|f'] Hf; [lia|]. apply HL. lia.
  - apply IH; auto; [lia|]. eapply lt_head_mono; [apply lim_mono|exact Hs].
Qed.

Lemma PE_parse ts r : PE 0 ts r -> r <> PFuel -> parse_start ts = r.
Proof.
  intros [f H] Hr. pose proof (parse_start_fuel ts) as Hp. unfold parse_start in *.
  rewrite <- (proj1 (parse_mono _) 0 ts Hp (f + (2 * length ts + 2))) by lia.
  apply H. lia.
Qed.

Theorem parse_complete w e rest :
  gram 1 w e -> lt_head 1 rest -> noerr rest -> parse_start (w ++ rest) = POk e rest.
Proof.
  intros H H1 H2. apply PE_parse; [|discriminate].
  eapply complete; [exact H| | | | |]; auto; try lia.
  apply PL_stop; [lia| |exact H2].
  destruct rest as [|t r]; [exact I|]. destruct t; cbn in H1 |- *; auto; lia.
Qed.

(** ** Soundness *)
Definition lvl (p : nat) : nat := if Nat.leb p 1 then 1 else if Nat.leb 13 p then 13 else p.

Lemma gram_down k k' w e : gram k' w e -> 1 <= k -> k <= k' -> gram k w e.
Proof.
  intros H Hk Hkk. pose proof (gram_range _ _ _ H) as Hr.
  assert (Hd : exists d, k' = k + d) by (exists (k' - k); lia). destruct Hd as [d ->].
  revert k H Hk Hkk Hr. induction d as [|d IH]; intros k H Hk Hkk Hr.
  - replace (k + 0) with k in H by lia. exact H.
  - apply G_up; [lia|lia|]. replace (k + S d) with (S k + d) in H by lia. apply IH; auto; lia.
Qed.

Lemma parse_sound_aux : forall f,
  (forall p ts e rest, p <= 14 -> pexp f p ts = POk e rest ->
     exists w, ts = w ++ rest /\ gram (lvl p) w e /\ lt_head p rest /\ noerr rest)
  /\ (forall p l ts e rest k wl, p <= 14 -> ploop f p l ts = POk e rest ->
     gram k wl l -> lvl p <= k -> lt_head (lim k) ts ->
     exists w, ts = w ++ rest /\ gram (lvl p) (wl ++ w) e /\ lt_head p rest /\ noerr rest).
Proof.
  induction f as [|f [IHe IHl]]; [split; cbn; intros; discriminate|].
  assert (Hlvl : forall p, 1 <= lvl p <= 13).
  { intros p. unfold lvl. destruct (Nat.leb_spec p 1), (Nat.leb_spec 13 p); lia. }
  split.
  - intros p ts e rest Hp H. cbn [pexp] in H. destruct ts as [|t r]; [discriminate|].
    pose proof (Hlvl p) as Hl.
    assert (Atom : forall e0, gram 15 [t] e0 -> ploop f p e0 r = POk e rest ->
       exists w, t :: r = w ++ rest /\ gram (lvl p) w e /\ lt_head p rest /\ noerr rest).
    { intros e0 Hg H0.
      destruct (IHl p e0 r e rest 15 [t] Hp H0 Hg) as (w & -> & Hg' & Hs); [lia| |].
      - cbn. destruct r as [|t' r']; [exact I|]. destruct t'; cbn; auto; lia.
      - exists (t :: w). auto. }
    assert (Pre : match pre_tok t with
          | Some (o, q) => match pexp f q r with
              | POk e r' => ploop f p (EPre o e) r' | PErr => PErr | PFuel => PFuel end
          | None => PErr end = POk e rest ->
       exists w, t :: r = w ++ rest /\ gram (lvl p) w e /\ lt_head p rest /\ noerr rest).
    { clear H. intros H. destruct (pre_tok t) as [[o q]|] eqn:Ht; [|discriminate].
      pose proof (pre_tok_prec _ _ _ Ht) as Hq.
      destruct (pexp f q r) as [e0 r'| |] eqn:E; try discriminate.
      destruct (IHe q r e0 r') as (w & -> & Hg & Hs & Hn); [lia|exact E|].
      assert (Hq' : lvl q = 13) by (destruct Hq as [-> | ->]; reflexivity).
      rewrite Hq' in Hg.
      assert (Hg' : gram 13 (t :: w) (EPre o e0)).
      { constructor; [|exact Hg]. apply pre_level_iff. exists q. exact Ht. }
      destruct (IHl p _ r' e rest 13 (t :: w) Hp H Hg') as (w' & -> & Hg'' & Hs'); [lia| |].
      - eapply lt_head_mono; [|exact Hs]. unfold lim. cbn. lia.
      - exists (t :: w ++ w'). rewrite app_assoc. cbn [app]. auto. }
    destruct t; try (apply Pre; exact H).
    + (* ( *)
      destruct (pexp f 0 r) as [e0 r'| |] eqn:E; try discriminate.
      destruct (IHe 0 r e0 r') as (w & -> & Hg & Hs & Hn); [lia|exact E|].
      destruct r' as [|[] r']; try discriminate.
      assert (Hg' : gram 15 (KLP :: w ++ [KRP]) (EParen e0)) by (constructor; exact Hg).
      destruct (IHl p _ r' e rest 15 _ Hp H Hg') as (w' & -> & Hg'' & Hs'); [lia| |].
      * cbn. destruct r' as [|t' r'']; [exact I|]. destruct t'; cbn; auto; lia.
      * exists ((KLP :: w ++ [KRP]) ++ w'). split; [|split; [exact Hg''|exact Hs']].
        cbn [app]. rewrite <- !app_assoc. reflexivity.
    + apply (Atom EVar); [constructor|exact H].
    + apply (Atom (EInt ds)); [constructor|exact H].
  - intros p l ts e rest k wl Hp H Hg Hk Hs. cbn [ploop] in H.
    pose proof (Hlvl p) as Hl. pose proof (gram_range _ _ _ Hg) as Hkr.
    assert (Stop : forall ts', POk l ts' = POk e rest -> lt_head p ts' -> noerr ts' ->
       exists w, ts' = w ++ rest /\ gram (lvl p) (wl ++ w) e /\ lt_head p rest /\ noerr rest).
    { intros ts' E H1 H2. injection E as <- <-. exists []. rewrite app_nil_r.
      repeat split; auto. eapply gram_down; [exact Hg|lia|exact Hk]. }
    destruct ts as [|t r]; [apply Stop; [exact H|exact I|exact I]|].
    assert (Bin : forall o q, bin_tok t = Some (o, q) ->
        (if Nat.leb p q then match pexp f (S q) r with
                    | POk b r' => ploop f p (EBin o l b) r'
                    | PErr => PErr | PFuel => PFuel end else POk l (t :: r)) = POk e rest ->
       exists w, t :: r = w ++ rest /\ gram (lvl p) (wl ++ w) e /\ lt_head p rest /\ noerr rest).
    { clear H. intros o q Ht H. destruct (bin_tok_prec _ _ _ Ht) as [Hq Hpr].
      destruct (Nat.leb_spec p q) as [Hpq|Hpq].
      - destruct (pexp f (S q) r) as [b r'| |] eqn:E; try discriminate.
        destruct (IHe (S q) r b r') as (w & -> & Hgb & Hsb & Hnb); [lia|exact E|].
        assert (Hq' : lvl (S q) = S q).
        { unfold lvl. destruct (Nat.leb_spec (S q) 1), (Nat.leb_spec 13 (S q)); lia. }
        rewrite Hq' in Hgb.
        cbn in Hs. rewrite Hpr in Hs.
        assert (Hqk : q <= k). { unfold lim in Hs. destruct (Nat.leb_spec k 1); lia. }
        assert (Hg' : gram q (wl ++ t :: w) (EBin o l b)).
        { apply G_bin; [apply bin_level_iff, Ht|eapply gram_down; [exact Hg|lia|exact Hqk]|exact Hgb]. }
        assert (Hpq' : lvl p <= q).
        { unfold lvl. destruct (Nat.leb_spec p 1), (Nat.leb_spec 13 p); lia. }
        destruct (IHl p _ r' e rest q _ Hp H Hg' Hpq') as (w' & -> & Hg'' & Hs').
        + eapply lt_head_mono; [|exact Hsb]. unfold lim. destruct (Nat.leb_spec q 1); lia.
        + exists (t :: w ++ w'). rewrite <- app_assoc in Hg''. cbn [app] in *. 
          rewrite <- app_assoc. auto.
      - apply Stop; [exact H| |destruct t; try exact I; discriminate Ht]. cbn. rewrite Hpr. exact Hpq. }
    assert (Post : forall o, post_tok t = Some o ->
        (if Nat.leb p 15 then ploop f p (EPost o l) r else POk l (t :: r)) = POk e rest ->
       exists w, t :: r = w ++ rest /\ gram (lvl p) (wl ++ w) e /\ lt_head p rest /\ noerr rest).
    { clear H. intros o Ht H. destruct (Nat.leb_spec p 15); [|lia].
      assert (Hpr : prec t = Some 14) by (destruct t; cbn in Ht; try discriminate; reflexivity).
      cbn in Hs. rewrite Hpr in Hs.
      assert (Hk14 : 14 <= k). { unfold lim in Hs. destruct (Nat.leb_spec k 1); lia. }
      assert (Hg' : gram 14 (wl ++ [t]) (EPost o l)).
      { constructor; [apply post_level_iff, Ht|eapply gram_down; [exact Hg|lia|exact Hk14]]. }
      destruct (IHl p _ r e rest 14 _ Hp H Hg') as (w' & -> & Hg'' & Hs'); [lia| |].
      - cbn. destruct r as [|t' r'']; [exact I|]. destruct t'; cbn; auto; lia.
      - exists (t :: w'). rewrite <- app_assoc in Hg''. auto. }
    destruct t; try (eapply Bin; [reflexivity|exact H]);
      try (eapply Post; [reflexivity|exact H]);
      try (apply Stop; [exact H|exact I|exact I]); try discriminate.
    (* ? *)
    destruct (Nat.leb_spec p 1) as [Hp1|Hp1]; [|apply Stop; [exact H|exact Hp1|exact I]].
    destruct (pexp f 0 r) as [b r'| |] eqn:E; try discriminate.
    destruct (IHe 0 r b r') as (w & -> & Hgb & Hsb & Hnb); [lia|exact E|].
    destruct r' as [|[] r']; try discriminate.
    destruct (pexp f 1 r') as [c r''| |] eqn:E'; try discriminate.
    destruct (IHe 1 r' c r'') as (w' & -> & Hgc & Hsc & Hnc); [lia|exact E'|].
    cbn in Hs.
    assert (Hk2 : 2 <= k). { unfold lim in Hs. destruct (Nat.leb_spec k 1); lia. }
    assert (Hg' : gram 1 (wl ++ KQ :: w ++ KColon :: w') (ECond l b c)).
    { constructor; [eapply gram_down; [exact Hg|lia|exact Hk2]|exact Hgb|exact Hgc]. }
    assert (Hpl : lvl p = 1) by (unfold lvl; destruct (Nat.leb_spec p 1); lia).
    destruct (IHl p _ r'' e rest 1 _ Hp H Hg') as (w'' & -> & Hg'' & Hs''); [lia|exact Hsc|].
    exists (KQ :: w ++ KColon :: w' ++ w''). split; [|split; [|exact Hs'']].
    + cbn [app]. rewrite <- !app_assoc. cbn [app]. rewrite <- app_assoc. reflexivity.
    + rewrite <- app_assoc in Hg''. cbn [app] in Hg''. rewrite <- app_assoc in Hg''. exact Hg''.
Qed.

Theorem parse_sound ts e rest : parse_start ts = POk e rest ->
  exists w, ts = w ++ rest /\ gram 1 w e /\ lt_head 1 rest /\ noerr rest.
Proof.
  unfold parse_start. intros H.
  destruct (proj1 (parse_sound_aux (2 * length ts + 2)) 0 ts e rest) as (w & E & Hg & Hs & Hn); [lia|exact H|].
  exists w. repeat split; auto. eapply lt_head_mono; [|exact Hs]. lia.
Qed.

(** The grammar is unambiguous. *)
Theorem gram_unambiguous w e e' : gram 1 w e -> gram 1 w e' -> e = e'.
Proof.
  intros H H'. apply (parse_complete w e []) in H; try exact I.
  apply (parse_complete w e' []) in H'; try exact I. congruence.
Qed.

(** ** Writing a tree and reading it back *)
Lemma gram_yield k w e : gram k w e -> w = yield e.
Proof.
  induction 1; cbn [yield]; subst; auto.
  - f_equal. f_equal. match goal with H : bin_level _ _ _ |- _ => destruct H; reflexivity end.
  - f_equal. match goal with H : pre_level _ _ |- _ => destruct H; reflexivity end.
  - f_equal. match goal with H : post_level _ _ |- _ => destruct H; reflexivity end.
Qed.
Lemma level_of_range e : 1 <= level_of e <= 15.
Proof. destruct e as [| | | | |[]|]; cbn; lia. Qed.
Lemma level_of_paren_if b e : level_of (paren_if b e) = if b then 15 else level_of e.
Proof. destruct b; reflexivity. Qed.
Lemma level_of_parens e : level_of (parens e) = level_of e.
Proof. destruct e; reflexivity. Qed.
Lemma bin_text_level o a b : bin_level (bin_text o) o (level_of (EBin o a b)).
Proof. destruct o; constructor. Qed.

Lemma gram_parens e : gram (level_of e) (yield (parens e)) (parens e).
Proof.
  induction e as [ds| |e IH|o e IH|o e IH|o a IHa b IHb|a IHa b IHb c IHc].
  all: assert (Fit : forall k x, 1 <= k <= 15 -> gram (level_of x) (yield (parens x)) (parens x) ->
        gram k (yield (paren_if (Nat.ltb (level_of x) k) (parens x)))
               (paren_if (Nat.ltb (level_of x) k) (parens x))).
  all: try (intros k x Hk Hx; destruct (Nat.ltb_spec (level_of x) k); cbn [paren_if yield];
       [ eapply gram_down; [apply G_paren, (gram_down 1 (level_of x)); [exact Hx|lia|apply level_of_range]|lia|lia]
       | eapply gram_down; [exact Hx|lia|lia] ]).
  all: pose proof level_of_range as LR.
  - constructor.
  - constructor.
  - cbn. constructor. eapply gram_down; [exact IH|lia|apply LR].
  - cbn [parens yield level_of]. constructor; [destruct o; constructor|]. apply Fit; [lia|exact IH].
  - cbn [parens yield level_of]. constructor; [destruct o; constructor|]. apply Fit; [lia|exact IH].
  - cbn [parens yield]. 
    assert (Hl : 2 <= level_of (EBin o a b) <= 12) by (destruct o; cbn; lia).
    apply G_bin; [apply bin_text_level| |]; apply Fit; auto; lia.
  - cbn [parens yield level_of]. constructor.
    + apply Fit; [lia|exact IHa].
    + eapply gram_down; [exact IHb|lia|apply LR].
    + eapply gram_down; [exact IHc|lia|apply LR].
Qed.
Lemma erase_paren_if b e : erase (paren_if b e) = erase e.
Proof. destruct b; reflexivity. Qed.
Lemma erase_parens e : erase (parens e) = erase e.
Proof.
  induction e; cbn [parens erase]; rewrite ?erase_paren_if; try congruence; reflexivity.
Qed.

Theorem parse_print e s : layout (yield (parens e)) s ->
  parse_start (lex s) = POk (parens e) [].
Proof.
  intros H. apply layout_lex in H. rewrite H.
  rewrite <- (app_nil_r (yield (parens e))). apply parse_complete; try exact I.
  eapply gram_down; [apply gram_parens|lia|apply level_of_range].
Qed.

(** every tree with well-formed literals can be written down *)
Lemma layout_exists ts : Forall tok_ok ts -> exists s, layout ts (SP :: s).
Proof.
  induction ts as [|t ts IH]; intros H.
  - exists []. constructor. intros c [<-|[]]; auto.
  - inversion H as [|? ? Ht Hts]; subst. destruct (IH Hts) as [s Hs].
    exists (text t ++ SP :: s). change (SP :: text t ++ SP :: s) with ([SP] ++ text t ++ SP :: s).
    constructor; auto.
    + intros c [<-|[]]; auto.
    + intros t' x Ht' Heq. destruct (Nat.le_gt_cases (length (text t')) (length (text t))) as [L|L]; [exact L|].
      exfalso. assert (Hin : In SP (text t')).
      { assert (E : nth_error (text t ++ SP :: s) (length (text t)) = nth_error (text t' ++ x) (length (text t)))
          by (rewrite Heq; reflexivity).
        rewrite nth_error_app2, Nat.sub_diag in E by lia. rewrite nth_error_app1 in E by lia.
        cbn in E. symmetry in E. eapply nth_error_In; exact E. }
      clear -Ht' Hin. destruct t'; cbn in Hin; try (repeat destruct Hin as [Hin|Hin]; discriminate || contradiction).
      destruct Ht' as [_ Hd]. apply Hd in Hin. cbn in Hin. lia.
Qed.
Lemma yield_tok_ok e : lits_ok e -> Forall tok_ok (yield e).
Proof.
  assert (P1 : forall o, tok_ok (pre_text o)) by (intros []; exact I).
  assert (P2 : forall o, tok_ok (post_text o)) by (intros []; exact I).
  assert (P3 : forall o, tok_ok (bin_text o)) by (intros []; exact I).
  induction e as [ds| |e IH|o e IH|o e IH|o a IHa b IHb|a IHa b IHb c IHc];
    cbn [yield lits_ok]; intros H.
  - constructor; [exact H|constructor].
  - repeat constructor.
  - constructor; [exact I|]. apply Forall_app. split; [apply IH, H|repeat constructor].
  - apply Forall_app. split; [apply IH, H|]. constructor; [apply P2|constructor].
  - constructor; [apply P1|apply IH, H].
  - apply Forall_app. split; [apply IHa, H|]. constructor; [apply P3|apply IHb, H].
  - apply Forall_app. split; [apply IHa, H|]. constructor; [exact I|].
    apply Forall_app. split; [apply IHb, H|]. constructor; [exact I|apply IHc, H].
Qed.
