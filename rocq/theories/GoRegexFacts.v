From Verif Require Import GoStr GoStrFacts GoRegex.
From Coq Require Import Lia.

Definition star_body (g : bool) (p : ascii -> bool) (r : list item) :=
  fix star (pre : bytes) (s : bytes) {struct s} : option (list bytes * bytes) :=
         let here := match rx r s with Some (m, u) => Some (rev pre :: m, u) | None => None end in
         let more := match s with
                     | c :: t => if p c then star (c :: pre) t else None
                     | [] => None
                     end in
         if g then match more with Some x => Some x | None => here end
         else match here with Some x => Some x | None => more end.
Lemma rx_star g p r s : rx (IStar g p :: r) s = star_body g p r [] s.
Proof. reflexivity. Qed.

Lemma star_sound g p r s : forall pre m u, star_body g p r pre s = Some (m, u) ->
  exists w t m', s = w ++ t /\ forallb p w = true /\ m = (rev pre ++ w) :: m' /\ rx r t = Some (m', u).
Proof.
  induction s as [|c t IH]; intros pre m u; cbn [star_body].
  - destruct (rx r []) as [[m' u']|] eqn:E; destruct g; try discriminate;
      intros [= <- <-]; exists [], [], m'; rewrite (app_nil_r (rev pre)); auto.
  - assert (here : forall x, match rx r (c :: t) with Some (m0, u0) => Some (rev pre :: m0, u0) | None => None end = Some x ->
      x = (m, u) -> exists w t0 m', c :: t = w ++ t0 /\ forallb p w = true /\ m = (rev pre ++ w) :: m' /\ rx r t0 = Some (m', u)).
    { intros x. destruct (rx r (c :: t)) as [[m' u']|] eqn:E; [|discriminate].
      intros [= <-] [= <- <-]. exists [], (c :: t), m'. rewrite (app_nil_r (rev pre)). auto. }
    assert (more : forall x, (if p c then star_body g p r (c :: pre) t else None) = Some x -> x = (m, u) ->
      exists w t0 m', c :: t = w ++ t0 /\ forallb p w = true /\ m = (rev pre ++ w) :: m' /\ rx r t0 = Some (m', u)).
    { intros x. destruct (p c) eqn:P; [|discriminate]. intros E ->.
      destruct (IH _ _ _ E) as (w & t0 & m' & -> & F & -> & R).
      exists (c :: w), t0, m'. cbn. rewrite P, F, <- app_assoc. auto. }
    fold (star_body g p r) in *. cbv zeta.
    destruct g.
    + destruct (if p c then _ else None) as [x|] eqn:E; [|intros H; eapply here; eauto].
      intros [= ->]. eapply more; eauto.
    + destruct (match rx r (c :: t) with Some (m0, u0) => _ | None => None end) as [x|] eqn:E; [|intros H; eapply more; eauto].
      intros [= ->]. eapply here; eauto.
Qed.
(** the star succeeds as soon as some split does *)
Lemma star_complete g p r s : forall pre w t, s = w ++ t -> forallb p w = true -> rx r t <> None ->
  star_body g p r pre s <> None.
Proof.
  induction s as [|c s IH]; intros pre w t E F N.
  - symmetry in E. apply app_eq_nil in E as [-> ->]. cbn. destruct (rx r []) as [[? ?]|]; [|congruence].
    destruct g; discriminate.
  - cbn [star_body]. fold (star_body g p r). cbv zeta.
    destruct w as [|c' w]; cbn in E.
    + subst t. destruct (rx r (c :: s)) as [[? ?]|]; [|congruence].
      destruct g; [destruct (if p c then _ else None); discriminate|discriminate].
    + injection E as -> E. cbn in F. apply andb_prop in F as [-> F].
      specialize (IH (c' :: pre) _ _ E F N).
      destruct g; destruct (star_body _ p r (c' :: pre) s); try congruence; destruct (rx r (c' :: s)) as [[? ?]|]; congruence.
Qed.
(** a greedy star takes the longest text for which the rest matches *)
Lemma greedy_longest p r s : forall pre m u, star_body true p r pre s = Some (m, u) ->
  exists w t m', s = w ++ t /\ forallb p w = true /\ m = (rev pre ++ w) :: m' /\ rx r t = Some (m', u)
    /\ forall w' t', s = w' ++ t' -> forallb p w' = true -> (length w < length w')%nat -> rx r t' = None.
Proof.
  induction s as [|c t IH]; intros pre m u; cbn [star_body].
  - destruct (rx r []) as [[m' u']|] eqn:E; try discriminate. intros [= <- <-]. exists [], [], m'. rewrite (app_nil_r (rev pre)).
    repeat split; auto. intros w' t' H. symmetry in H. apply app_eq_nil in H as [-> ->]. cbn. lia.
  - fold (star_body true p r). cbv zeta. destruct (p c) eqn:P.
    + destruct (star_body true p r (c :: pre) t) as [[m0 u0]|] eqn:E.
      * intros [= -> ->]. destruct (IH _ _ _ E) as (w & t0 & m' & -> & F & -> & R & L).
        exists (c :: w), t0, m'. cbn [forallb length rev app]. rewrite P, F, <- app_assoc. repeat split; auto.
        intros [|c' w'] t' H F' Hl; cbn in Hl; [lia|]. cbn in H. injection H as <- H. cbn in F'.
        apply andb_prop in F' as [_ F']. apply (L w' t' H F'). lia.
      * destruct (rx r (c :: t)) as [[m' u']|] eqn:R; [|discriminate]. intros [= <- <-].
        exists [], (c :: t), m'. rewrite (app_nil_r (rev pre)). repeat split; auto.
        intros [|c' w'] t' H F' Hl; cbn in Hl; [lia|]. cbn in H. injection H as <- H. cbn in F'.
        apply andb_prop in F' as [_ F']. destruct (rx r t') eqn:Q; [|reflexivity].
        exfalso. apply (star_complete true p r t (c :: pre) w' t' H F'); [congruence|exact E].
    + destruct (rx r (c :: t)) as [[m' u']|] eqn:R; [|discriminate]. intros [= <- <-].
      exists [], (c :: t), m'. rewrite (app_nil_r (rev pre)). repeat split; auto.
      intros [|c' w'] t' H F' Hl; cbn in Hl; [lia|]. cbn in H. injection H as <- H. cbn in F'.
      rewrite P in F'. discriminate.
Qed.
Lemma star_greedy_eq p r s : forall pre w t m u, s = w ++ t -> forallb p w = true -> rx r t = Some (m, u) ->
  (forall w' t', s = w' ++ t' -> forallb p w' = true -> (length w < length w')%nat -> rx r t' = None) ->
  star_body true p r pre s = Some ((rev pre ++ w) :: m, u).
Proof.
  intros pre w t m u E F R L.
  destruct (star_body true p r pre s) as [[m1 u1]|] eqn:Q.
  - destruct (greedy_longest _ _ _ _ _ _ Q) as (w1 & t1 & m' & E1 & F1 & -> & R1 & L1).
    assert (length w = length w1).
    { destruct (Nat.lt_trichotomy (length w) (length w1)) as [H|[H|H]]; [|exact H|].
      - rewrite (L w1 t1 E1 F1 H) in R1. discriminate.
      - rewrite (L1 w t E F H) in R. discriminate. }
    assert (w = w1 /\ t = t1) as [<- <-].
    { rewrite E in E1. clear -E1 H. revert w1 E1 H. induction w as [|a w IH]; intros [|b w1]; cbn; try discriminate; auto.
      intros [= -> E] [= H]. destruct (IH _ E H) as [-> ->]. auto. }
    rewrite R in R1. injection R1 as <- <-. reflexivity.
  - exfalso. apply (star_complete true p r s pre w t E F); [congruence|exact Q].
Qed.
(** the usual case: the text is followed by a character outside the class *)
Lemma longer_prefix (w w' t t' : bytes) : w ++ t = w' ++ t' -> (length w < length w')%nat ->
  exists c x, w' = w ++ c :: x /\ t = c :: x ++ t'.
Proof.
  revert w'. induction w as [|a w IH]; intros [|b w']; cbn; try lia.
  - intros -> _. exists b, w'. auto.
  - intros [= -> E] H. destruct (IH w' E) as (c & x & -> & ->); [lia|]. exists c, x. auto.
Qed.
Lemma rx_star_stop p r w t m u : forallb p w = true -> (forall c x, t = c :: x -> p c = false) ->
  rx r t = Some (m, u) -> rx (IStar true p :: r) (w ++ t) = Some (w :: m, u).
Proof.
  intros F S R. rewrite rx_star.
  apply (star_greedy_eq p r (w ++ t) [] w t m u eq_refl F R).
  intros w' t' E F' L. exfalso. destruct (longer_prefix _ _ _ _ E L) as (c & x & -> & ->).
  rewrite forallb_app in F'. apply andb_prop in F' as [_ F']. cbn in F'. rewrite (S c (x ++ t') eq_refl) in F'. discriminate.
Qed.
Lemma rx_star_inv p r s m u : rx (IStar true p :: r) s = Some (m, u) ->
  exists w t m', s = w ++ t /\ forallb p w = true /\ m = w :: m' /\ rx r t = Some (m', u)
    /\ forall w' t', s = w' ++ t' -> forallb p w' = true -> (length w < length w')%nat -> rx r t' = None.
Proof. rewrite rx_star. intros H. exact (greedy_longest _ _ _ _ _ _ H). Qed.
Lemma rx_star_some g p r w t : forallb p w = true -> rx r t <> None -> rx (IStar g p :: r) (w ++ t) <> None.
Proof. intros F N. rewrite rx_star. apply (star_complete g p r (w ++ t) [] w t eq_refl F N). Qed.

(** lazy star *)
Lemma lazy_shortest p r s : forall pre m u, star_body false p r pre s = Some (m, u) ->
  exists w t m', s = w ++ t /\ forallb p w = true /\ m = (rev pre ++ w) :: m' /\ rx r t = Some (m', u)
    /\ forall w' t', s = w' ++ t' -> (length w' < length w)%nat -> rx r t' = None.
Proof.
  induction s as [|c t IH]; intros pre m u; cbn [star_body].
  - destruct (rx r []) as [[m' u']|] eqn:E; try discriminate. intros [= <- <-]. exists [], [], m'. rewrite (app_nil_r (rev pre)).
    repeat split; auto. cbn. intros; lia.
  - fold (star_body false p r). cbv zeta. destruct (rx r (c :: t)) as [[m' u']|] eqn:R.
    + intros [= <- <-]. exists [], (c :: t), m'. rewrite (app_nil_r (rev pre)). repeat split; auto. cbn. intros; lia.
    + destruct (p c) eqn:P; [|discriminate]. intros E.
      destruct (IH _ _ _ E) as (w & t0 & m' & -> & F & -> & R' & L).
      exists (c :: w), t0, m'. cbn [forallb length rev app]. rewrite P, F, <- app_assoc. repeat split; auto.
      intros [|c' w'] t' H Hl; cbn in *.
      * rewrite <- H. exact R.
      * injection H as <- H. apply (L w' t' H). lia.
Qed.

Lemma rx_one p r c t m u : p c = true -> rx r t = Some (m, u) -> rx (IOne p :: r) (c :: t) = Some ([c] :: m, u).
Proof. intros P R. cbn. rewrite P, R. reflexivity. Qed.
Lemma rx_one_inv p r s m u : rx (IOne p :: r) s = Some (m, u) ->
  exists c t m', s = c :: t /\ p c = true /\ m = [c] :: m' /\ rx r t = Some (m', u).
Proof.
  destruct s as [|c t]; cbn; [discriminate|]. destruct (p c) eqn:P; [|discriminate].
  destruct (rx r t) as [[m' u']|] eqn:R; [|discriminate]. intros [= <- <-]. exists c, t, m'. auto.
Qed.
Lemma rx_one_some p r c t : p c = true -> rx r t <> None -> rx (IOne p :: r) (c :: t) <> None.
Proof. intros P N. cbn. rewrite P. destruct (rx r t) as [[? ?]|]; congruence. Qed.

(** literal text *)
Lemma rx_lit (l : bytes) r t m u : rx r t = Some (m, u) ->
  rx (map (fun c => IOne (Ascii.eqb c)) l ++ r) (l ++ t) = Some (map (fun c => [c]) l ++ m, u).
Proof.
  intros R. induction l as [|c l IH]; [exact R|]. cbn [map app].
  apply rx_one; [apply Ascii.eqb_refl|exact IH].
Qed.
Lemma rx_lit_inv (l : bytes) r : forall s m u,
  rx (map (fun c => IOne (Ascii.eqb c)) l ++ r) s = Some (m, u) ->
  exists t m', s = l ++ t /\ m = map (fun c => [c]) l ++ m' /\ rx r t = Some (m', u).
Proof.
  induction l as [|c l IH]; intros s m u; cbn [map app]; [eauto|].
  intros H. apply rx_one_inv in H as (c' & t & m' & -> & P & -> & H). apply Ascii.eqb_eq in P as <-.
  apply IH in H as (t' & m'' & -> & -> & H). eauto.
Qed.
