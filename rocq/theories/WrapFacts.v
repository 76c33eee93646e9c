(** Facts about line splitting. *)
From Coq Require Import Lia.
From Verif Require Import GoStr GoStrFacts WrapModel WrapSpec.

Lemma cut_at (s : bytes) i : firstn (i + 1) s ++ skipn (i + 1) s = s.
Proof. apply firstn_skipn. Qed.
Lemma cut_first c s i : index_byte c s = Some i ->
  exists a b, s = a ++ c :: b /\ ~ In c a /\ i = length a.
Proof.
  intros H. apply index_byte_some in H as (H1 & H2 & H3).
  exists (firstn i s), (skipn (S i) s). split; [exact H1|]. split; [exact H2|].
  rewrite firstn_length. lia.
Qed.
Lemma cut_last c s i : last_index_byte c s = Some i ->
  exists a b, s = a ++ c :: b /\ ~ In c b /\ i = length a.
Proof.
  intros H. apply last_index_byte_some in H as (H1 & H2 & H3).
  exists (firstn i s), (skipn (S i) s). split; [exact H1|]. split; [exact H2|].
  rewrite firstn_length. lia.
Qed.
Lemma firstn_cut {A} (a : list A) c b : firstn (length a + 1) (a ++ c :: b) = a ++ [c].
Proof.
  rewrite firstn_app, firstn_all2 by lia. replace (length a + 1 - length a) with 1 by lia. reflexivity.
Qed.
Lemma skipn_cut {A} (a : list A) c b : skipn (length a + 1) (a ++ c :: b) = b.
Proof.
  rewrite skipn_app, skipn_all2 by lia. replace (length a + 1 - length a) with 1 by lia. reflexivity.
Qed.
Lemma in_mid {A} (x : A) a b : In x (a ++ x :: b).
Proof. apply in_or_app; right; left; reflexivity. Qed.
(** a byte that only occurs in front of [b] *)
Lemma at_end_cut (c : ascii) a b x y : ~ In c a -> a ++ c :: b = x ++ c :: y -> b = [] -> y = [].
Proof.
  intros Ha. revert x. induction a as [|z a IH]; intros x E Eb; destruct x as [|w x]; cbn [app] in E.
  - congruence.
  - injection E as <- E. subst b. destruct x; discriminate.
  - injection E as -> E. exfalso; apply Ha; left; reflexivity.
  - injection E as -> E. apply (IH (fun h => Ha (or_intror h)) x E Eb).
Qed.
Lemma app_cut (c : ascii) a b x y : ~ In c x -> a ++ c :: b = x ++ y -> exists a', a = x ++ a' /\ y = a' ++ c :: b.
Proof.
  intros Hx. revert a. induction x as [|z x IH]; intros a E; cbn [app] in *.
  - exists a. split; [reflexivity|]. symmetry; exact E.
  - destruct a as [|w a]; cbn [app] in E.
    + injection E as -> E. exfalso; apply Hx; left; reflexivity.
    + injection E as -> E. destruct (IH (fun h => Hx (or_intror h)) a E) as (a' & -> & ->).
      exists a'. split; reflexivity.
Qed.

(** what the last piece looks like *)
Definition last_ok (th : Z) (p : bytes) : Prop :=
  (Z.of_nat (length p) <= th)%Z \/ ~ In SP p \/ exists q, p = q ++ [SP].
Lemma split0_ok th : forall fuel s d, length s < fuel ->
  exists l, split0 fuel s th d = Some l /\ concat l = s /\ (forall p, In p l -> nl_at_end p)
  /\ exists l0 p, l = l0 ++ [p] /\ last_ok th p.
Proof.
  induction fuel as [|f IH]; intros s d Hl; [lia|]. cbn [split0].
  assert (one : nl_at_end s -> last_ok th s ->
    exists l, Some [s] = Some l /\ concat l = s /\ (forall p, In p l -> nl_at_end p)
    /\ exists l0 p, l = l0 ++ [p] /\ last_ok th p).
  { intros Hn Hb. exists [s]. split; [reflexivity|]. split; [apply app_nil_r|].
    split; [intros p [<-|[]]; exact Hn|]. exists [], s. split; [reflexivity|exact Hb]. }
  match goal with |- context [match index_byte NL s with Some _ => _ | None => ?b end] => set (blank := b) end.
  assert (HB : nl_at_end s -> exists l, blank = Some l /\ concat l = s /\ (forall p, In p l -> nl_at_end p)
    /\ exists l0 p, l = l0 ++ [p] /\ last_ok th p).
  { intros Hn. unfold blank. destruct (Z.leb_spec (Z.of_nat (length s)) th); [apply one; [exact Hn|left; assumption]|].
    destruct (last_index_byte SP s) as [i|] eqn:E.
    - apply cut_last in E as (a & b & -> & Hb & ->).
      destruct (Nat.ltb_spec (length a) (length (a ++ SP :: b) - 1)) as [Hi|Hi];
        rewrite app_length in Hi; cbn [length] in Hi.
      + rewrite firstn_cut, skipn_cut.
        destruct (IH (a ++ [SP]) (S d)) as (l & E & E2 & E3 & _).
        { rewrite app_length in *. cbn [length] in *. lia. }
        rewrite E. exists (l ++ [b]). split; [reflexivity|]. split.
        { rewrite concat_app, E2. cbn [concat]. rewrite <- app_assoc, (app_nil_r b). reflexivity. }
        split.
        { intros p Hp. apply in_app_or in Hp as [Hp|[<-|[]]]; [apply E3; exact Hp|].
          intros x y Exy. apply (Hn (a ++ SP :: x) y). rewrite Exy, <- app_assoc. reflexivity. }
        exists l, b. split; [reflexivity|]. right; left. exact Hb.
      + apply one; [exact Hn|]. right; right.
        assert (b = []) by (destruct b; [reflexivity|cbn [length] in Hi; lia]). subst b.
        exists a. reflexivity.
    - apply one; [exact Hn|]. right; left. apply last_index_byte_none in E. exact E. }
  destruct (index_byte NL s) as [i|] eqn:E.
  - apply cut_first in E as (a & b & -> & Ha & ->).
    destruct (Nat.ltb_spec (length a) (length (a ++ NL :: b) - 1)) as [Hi|Hi];
      rewrite app_length in Hi; cbn [length] in Hi.
    + rewrite firstn_cut, skipn_cut. clear HB blank one.
      destruct (IH b (S d)) as (l & El & E2 & E3 & l0 & p & E4 & E5).
      { rewrite app_length in *. cbn [length] in *. lia. }
      rewrite El. cbn [option_map].
      set (pre := match d with O => [[]; a ++ [NL]] | S _ => [a ++ [NL]] end).
      assert (Hc : concat pre = a ++ [NL]) by (destruct d; cbn; rewrite !app_nil_r; reflexivity).
      assert (Hp : forall q, In q pre -> q = [] \/ q = a ++ [NL]).
      { intros q Hq. destruct d; cbn in Hq; intuition. }
      exists (pre ++ l). split; [reflexivity|]. split.
      { rewrite concat_app, Hc, E2, <- app_assoc. reflexivity. }
      split.
      { intros q Hq. apply in_app_or in Hq as [Hq|Hq]; [|apply E3; exact Hq].
        destruct (Hp q Hq) as [-> | ->]; intros x y Exy; [destruct x; discriminate|].
        eapply at_end_cut; [exact Ha|exact Exy|reflexivity]. }
      exists (pre ++ l0), p. split; [rewrite E4, app_assoc; reflexivity|exact E5].
    + apply HB. assert (b = []) by (destruct b; [reflexivity|cbn [length] in Hi; lia]). subst b.
      intros x y Exy. eapply at_end_cut; [exact Ha|exact Exy|reflexivity].
  - apply HB. intros x y Exy. apply index_byte_none in E. exfalso; apply E. rewrite Exy. apply in_mid.
Qed.
Lemma split_ok th s :
  exists l, split s th = Some l /\ concat l = s /\ (forall p, In p l -> nl_at_end p)
  /\ exists l0 p, l = l0 ++ [p] /\ last_ok th p.
Proof. apply split0_ok. lia. Qed.
Lemma split_lines_concat s : concat (split_lines s) = s.
Proof. unfold split_lines. destruct (split_ok line_threshold s) as (l & -> & E & _). exact E. Qed.
Lemma split_lines_cons s : exists p r, split_lines s = p :: r.
Proof.
  unfold split_lines. destruct (split_ok line_threshold s) as (l & -> & _ & _ & l0 & p & -> & _).
  destruct l0 as [|x l0]; [exists p, []|exists x, (l0 ++ [p])]; reflexivity.
Qed.

(** ** The pieces, exactly *)
Lemma nl_end_index s : nl_at_end s -> forall i, index_byte NL s = Some i -> (i <? length s - 1) = false.
Proof.
  intros H i E. apply cut_first in E as (a & b & -> & Ha & ->). rewrite (H a b eq_refl).
  rewrite app_length. cbn [length]. apply Nat.ltb_ge. lia.
Qed.
Lemma split0_nl f s th d : nl_at_end s ->
  split0 (S f) s th d =
    if (Z.of_nat (length s) <=? th)%Z then Some [s]
    else match last_index_byte SP s with
         | Some i => if i <? length s - 1
                     then option_map (fun l => l ++ [skipn (i + 1) s]) (split0 f (firstn (i + 1) s) th (S d))
                     else Some [s]
         | None => Some [s]
         end.
Proof.
  intros H. cbn [split0]. destruct (index_byte NL s) as [i|] eqn:E; [|reflexivity].
  rewrite (nl_end_index s H i E). reflexivity.
Qed.
Lemma split0_solid f s th d : nl_at_end s -> solid s -> split0 (S f) s th d = Some [s].
Proof.
  intros H B. rewrite (split0_nl f s th d H). destruct (_ <=? _)%Z; [reflexivity|].
  destruct B as [B|[q ->]].
  - destruct (last_index_byte SP s) as [i|] eqn:E; [|reflexivity].
    apply cut_last in E as (a & b & -> & Hb & ->). exfalso. apply B, in_mid.
  - rewrite last_index_byte_app by (intros []). rewrite app_length. cbn [length].
    destruct (Nat.ltb_spec (length q) (length q + 1 - 1)); [lia|reflexivity].
Qed.
Lemma nl_end_prefix (a b : bytes) : nl_at_end (a ++ b) -> b <> [] -> ~ In NL a.
Proof.
  intros H Hb I. apply in_split in I as (x & y & ->). apply Hb.
  specialize (H x (y ++ b)). rewrite <- app_assoc in H. specialize (H eq_refl). apply app_eq_nil in H. apply H.
Qed.
Lemma nl_end_no a : ~ In NL a -> nl_at_end a.
Proof. intros H x y ->. exfalso. apply H, in_mid. Qed.
Lemma split0_last th f s d l : length s < f -> nl_at_end s -> last_line th s l -> split0 f s th d = Some l.
Proof.
  intros Hf H L. destruct f as [|f]; [lia|].
  destruct L as [r Hl|r B|a b Hl Hb Nb].
  - rewrite (split0_nl f r th d H). destruct (Z.leb_spec (Z.of_nat (length r)) th); [reflexivity|lia].
  - apply split0_solid; assumption.
  - rewrite (split0_nl f _ th d H). destruct (Z.leb_spec (Z.of_nat (length (a ++ SP :: b))) th); [lia|].
    rewrite (last_index_byte_app SP a b Hb), firstn_cut, skipn_cut.
    rewrite app_length in *. cbn [length] in *. destruct b as [|x b]; [congruence|]. cbn [length] in *.
    destruct (Nat.ltb_spec (length a) (length a + S (S (length b)) - 1)); [|lia].
    destruct f as [|f]; [lia|]. rewrite split0_solid; [reflexivity| |].
    + apply nl_end_no. apply (nl_end_prefix _ (x :: b)); [|discriminate]. rewrite <- app_assoc. exact H.
    + right. exists a. reflexivity.
Qed.
Lemma last_line_ex th r : exists l, last_line th r l.
Proof.
  destruct (Z.leb_spec (Z.of_nat (length r)) th) as [H|H]; [exists [r]; apply L_short, H|].
  destruct (last_index_byte SP r) as [i|] eqn:E.
  - apply cut_last in E as (a & b & -> & Hb & ->). destruct b as [|x b].
    + eexists. apply L_solid. right. exists a. reflexivity.
    + eexists. apply L_cut; [exact H|exact Hb|discriminate].
  - exists [r]. apply L_solid. left. apply last_index_byte_none in E. exact E.
Qed.
Lemma split0_more th l r : r <> [] -> nl_at_end r -> last_line th r l ->
  forall firsts f d, Forall (fun x => ~ In NL x) firsts -> length (concat (map line firsts) ++ r) < f ->
  split0 f (concat (map line firsts) ++ r) th (S d) = Some (map line firsts ++ l).
Proof.
  intros Nr Hr L. induction firsts as [|x xs IH]; intros f d F Hf; cbn [map concat app] in *.
  - apply split0_last; assumption.
  - inversion F as [|? ? Fx Fxs]; subst. destruct f as [|f]; [lia|]. cbn [split0].
    set (t := concat (map line xs) ++ r) in *.
    assert (Nt : t <> []) by (unfold t; intros E; apply app_eq_nil in E as [_ E]; contradiction).
    assert (E : (line x ++ concat (map line xs)) ++ r = x ++ NL :: t).
    { unfold line, t. rewrite <- !app_assoc. reflexivity. }
    rewrite E in *. rewrite (index_byte_app NL x t Fx).
    rewrite app_length in *. cbn [length] in *.
    destruct (Nat.ltb_spec (length x) (length x + S (length t) - 1)) as [Hi|Hi];
      [|destruct t; [congruence|cbn [length] in Hi; lia]].
    rewrite firstn_cut, skipn_cut, IH by (assumption || lia). reflexivity.
Qed.
Lemma split_wrapped th s l : wrapped th s l -> split s th = Some l.
Proof.
  intros [s' l' H L|firsts r l' Nf F Nr Hr L]; unfold split.
  - apply split0_last; [lia|assumption|assumption].
  - destruct firsts as [|x xs]; [congruence|]. inversion F as [|? ? Fx Fxs]; subst. cbn [map concat app].
    set (t := concat (map line xs) ++ r).
    assert (Nt : t <> []) by (unfold t; intros E; apply app_eq_nil in E as [_ E]; contradiction).
    assert (E : (line x ++ concat (map line xs)) ++ r = x ++ NL :: t).
    { unfold line, t. rewrite <- !app_assoc. reflexivity. }
    rewrite E. set (n := length (x ++ NL :: t)). cbn [split0]. rewrite (index_byte_app NL x t Fx).
    unfold n. rewrite app_length. cbn [length].
    destruct (Nat.ltb_spec (length x) (length x + S (length t) - 1)) as [Hi|Hi];
      [|destruct t; [congruence|cbn [length] in Hi; lia]].
    rewrite firstn_cut, skipn_cut. unfold t.
    rewrite (split0_more th l' r Nr Hr L xs) by (assumption || (fold t; lia)). reflexivity.
Qed.
Lemma wrapped_ex th s : exists l, wrapped th s l.
Proof.
  assert (D : nl_at_end s \/ exists firsts r, firsts <> [] /\ Forall (fun x => ~ In NL x) firsts /\ r <> []
              /\ nl_at_end r /\ s = concat (map line firsts) ++ r).
  { remember (length s) as n eqn:En. assert (Hn : length s <= n) by lia. clear En. revert s Hn.
    induction n as [|n IH]; intros s Hn.
    - left. destruct s; [|cbn [length] in Hn; lia]. intros a b E. destruct a; discriminate.
    - destruct (index_byte NL s) as [i|] eqn:E.
      + apply cut_first in E as (a & b & -> & Ha & ->). destruct b as [|z b].
        * left. intros x y Exy. eapply at_end_cut; [exact Ha|exact Exy|reflexivity].
        * right. rewrite app_length in Hn. cbn [length] in Hn.
          destruct (IH (z :: b)) as [H|(fs & r & N & F & Nr & Hr & Eb)]; [cbn [length]; lia| |].
          -- exists [a], (z :: b). split; [discriminate|]. split; [constructor; [exact Ha|constructor]|].
             split; [discriminate|]. split; [exact H|]. cbn [map concat]. unfold line. rewrite app_nil_r, <- app_assoc. reflexivity.
          -- exists (a :: fs), r. split; [discriminate|]. split; [constructor; assumption|].
             split; [exact Nr|]. split; [exact Hr|]. rewrite Eb. cbn [map concat]. unfold line at 2. rewrite <- !app_assoc. reflexivity.
      + left. apply nl_end_no. apply index_byte_none in E. exact E. }
  destruct D as [H|(fs & r & N & F & Nr & Hr & ->)].
  - destruct (last_line_ex th s) as [l L]. exists l. apply W_one; assumption.
  - destruct (last_line_ex th r) as [l L]. eexists. apply W_more; eassumption.
Qed.
Lemma split_iff th s l : split s th = Some l <-> wrapped th s l.
Proof.
  split; [|apply split_wrapped]. intros E. destruct (wrapped_ex th s) as [l' W].
  rewrite (split_wrapped _ _ _ W) in E. injection E as <-. exact W.
Qed.
