From Verif Require Import GoStr GoStrFacts GoFmt FmtSpec GoFmtFacts FormatFacts MarkFacts AnySpec.
From Coq Require Import Lia ZifyBool ZifyNat ZifyN.
Local Open Scope Z_scope.

Definition dsafe (s : bytes) : Prop := forall m b, s = m ++ "["%char :: b -> inside m -> In "]"%char b /\ (2 <= length b)%nat.
Lemma inside_app a b : inside a -> inside b -> inside (a ++ b).
Proof.
  intros Ha Hb. induction Ha as [|c m I H IH|i m I H IH]; cbn [app]; [exact Hb|constructor; assumption|].
  rewrite <- app_assoc. cbn [app]. constructor; assumption.
Qed.
Lemma dsafe_app p t : dsafe (p ++ t) -> inside p -> dsafe t.
Proof. intros H Ip m b E Im. apply (H (p ++ m)); [rewrite E; apply app_assoc|apply inside_app; assumption]. Qed.
Lemma inside_chars p : (forall c, In c p -> In c (B "#+- 0123456789.*")) -> inside p.
Proof. induction p as [|c p IH]; intros H; constructor; [apply H; left; reflexivity|]. apply IH. intros x I. apply H. right. exact I. Qed.
Lemma flag_inside c : is_flag c = true -> In c (B "#+- 0123456789.*").
Proof. destruct c as [[] [] [] [] [] [] [] []]; cbv; intros H; try discriminate H; tauto. Qed.
Lemma digit_inside c : is_digit c = true -> In c (B "#+- 0123456789.*").
Proof. destruct c as [[] [] [] [] [] [] [] []]; cbv; intros H; try discriminate H; tauto. Qed.

Lemma index_byte_some c s : In c s -> exists a b, s = a ++ c :: b /\ ~ In c a /\ index_byte c s = Some (length a).
Proof.
  induction s as [|x s IH]; [intros []|]. cbn [index_byte]. destruct (Ascii.eqb_spec x c) as [->|N].
  - intros _. exists [], s. split; [reflexivity|]. split; [intros []|reflexivity].
  - intros [E|I]; [congruence|]. destruct (IH I) as (a & b & -> & Na & ->). exists (x :: a), b. split; [reflexivity|]. split; [intros [E|J]; [congruence|contradiction]|reflexivity].
Qed.

Section App.
Variable e : bytes.
Notation ap := ("%"%char :: e).
Lemma arg_number_app n s x x' r f : dsafe s -> arg_number n s x = (x', r, f) ->
  exists p, s = p ++ r /\ inside p /\ arg_number n (s ++ ap) x = (x', r ++ ap, f).
Proof.
  intros D E. destruct s as [|c s].
  { injection E as <- <- <-. exists []. split; [reflexivity|]. split; [constructor|reflexivity]. }
  unfold arg_number in *. cbn [app]. destruct (Ascii.eqb_spec c "[") as [->|Nc].
  2:{ injection E as <- <- <-. exists []. split; [reflexivity|]. split; [constructor|reflexivity]. }
  destruct (D [] s eq_refl IN_nil) as [I L]. destruct (index_byte_some _ _ I) as (a & b & -> & Na & Ei).
  unfold parse_arg_number in *. cbn [tl] in *.
  destruct (Nat.ltb_spec (length ("["%char :: a ++ "]"%char :: b)) 3) as [L'|_]; [cbn [length] in L'; lia|].
  destruct (Nat.ltb_spec (length ("["%char :: (a ++ "]"%char :: b) ++ ap)) 3) as [L'|_]; [cbn [length] in L'; rewrite app_length in L'; lia|].
  rewrite Ei in E. rewrite <- app_assoc. cbn [app].
  assert (Ei' : index_byte "]" (a ++ "]"%char :: b ++ ap) = Some (length a)).
  { clear - Na. induction a as [|x a IH]; [reflexivity|]. cbn [app index_byte length]. destruct (Ascii.eqb_spec x "]") as [->|N]; [exfalso; apply Na; left; reflexivity|].
    rewrite IH; [reflexivity|]. intros I. apply Na. right. exact I. }
  rewrite Ei'.
  assert (F : forall t, firstn (length a) (a ++ t) = a) by (intros t; rewrite firstn_app, firstn_all, Nat.sub_diag; cbn [firstn]; apply app_nil_r).
  assert (K : forall t, skipn (S (length a)) (a ++ "]"%char :: t) = t).
  { intros t. rewrite skipn_app, skipn_all2 by lia. replace (S (length a) - length a)%nat with 1%nat by lia. reflexivity. }
  rewrite F, K in *.
  exists ("["%char :: a ++ ["]"%char]).
  assert (R : r = b).
  { destruct (parsenum 0 false a) as [[z []] [|y l]]; cbn [andb] in E;
      try (injection E as _ <- _; reflexivity);
      destruct (true && (0 <=? z - 1) && (z - 1 <? Z.of_nat n)) eqn:Q; cbn [andb] in E; try rewrite Q in E;
      try (destruct ((0 <=? z - 1) && (z - 1 <? Z.of_nat n)); injection E as _ <- _; reflexivity). }
  subst r. split; [cbn [app]; rewrite <- app_assoc; reflexivity|]. split; [apply IN_index; [exact Na|constructor]|].
  destruct (parsenum 0 false a) as [[z []] [|y l]]; cbn [andb] in *;
    try (injection E as <- <-; reflexivity);
    destruct ((0 <=? z - 1) && (z - 1 <? Z.of_nat n)); injection E as <- <-; reflexivity.
Qed.
Lemma pct_cont : is_cont "%" = false. Proof. reflexivity. Qed.
Lemma pct_range lo hi : (0x80 <= lo)%N -> in_range lo hi "%" = false.
Proof. intros L. unfold in_range. change (code "%") with 37%N. lia. Qed.
Lemma decode_app c t : decode_rune ((c :: t) ++ ap) = decode_rune (c :: t).
Proof.
  cbn [app decode_rune]. destruct (code c <? 0x80)%N; [reflexivity|]. destruct (code c <? 0xC2)%N; [reflexivity|].
  destruct (code c <? 0xE0)%N; [destruct t as [|c1 t]; reflexivity|].
  destruct (code c <? 0xF0)%N.
  { destruct t as [|c1 [|c2 t]]; [|cbn [app]; rewrite pct_cont, andb_false_r; reflexivity|reflexivity].
    cbn [app]. destruct e as [|y l]; [reflexivity|]. rewrite pct_range by (destruct (code c =? 0xE0)%N; lia). reflexivity. }
  destruct (code c <? 0xF5)%N; [|reflexivity].
  destruct t as [|c1 [|c2 [|c3 t]]]; cbn [app].
  - destruct e as [|y [|z l]]; try reflexivity. rewrite pct_range by (destruct (code c =? 0xF0)%N; lia). reflexivity.
  - destruct e as [|y l]; [reflexivity|]. rewrite pct_cont, andb_false_r. reflexivity.
  - rewrite pct_cont, andb_false_r. reflexivity.
  - reflexivity.
Qed.
Lemma decode_fits c t r w : decode_rune (c :: t) = (r, w) -> (w <= length (c :: t))%nat.
Proof. intros E. destruct (decode_rune_width (c :: t)) as [_ H]; [discriminate|]. rewrite E in H. exact H. Qed.
Lemma verb_at_more c t v r : verb_at (c :: t) = Some (v, r) -> verb_at ((c :: t) ++ ap) = Some (v, r ++ ap) /\ exists q, c :: t = q ++ r.
Proof.
  intros E. cbn [app verb_at] in *. destruct (code c <? 128)%N.
  - injection E as <- <-. split; [reflexivity|]. exists [c]. reflexivity.
  - change (c :: t ++ ap) with ((c :: t) ++ ap). rewrite decode_app. destruct (decode_rune (c :: t)) as [x w] eqn:Ed.
    injection E as <- <-. pose proof (decode_fits _ _ _ _ Ed) as L. split.
    + rewrite skipn_app. replace (w - length (c :: t))%nat with 0%nat by lia. reflexivity.
    + exists (firstn w (c :: t)). symmetry. apply firstn_skipn.
Qed.
Lemma parsenum_app : forall s num b z i r, parsenum num b s = (z, i, r) -> r <> [] ->
  parsenum num b (s ++ ap) = (z, i, r ++ ap) /\ exists ds, s = ds ++ r /\ inside ds.
Proof.
  induction s as [|c s IH]; intros num b z i r E N; cbn [parsenum app] in *; [injection E as _ _ <-; congruence|].
  destruct (is_digit c) eqn:D.
  - destruct (too_large num); [injection E as _ _ <-; congruence|]. destruct (IH _ _ _ _ _ E N) as (E' & ds & -> & I).
    split; [exact E'|]. exists (c :: ds). split; [reflexivity|]. constructor; [apply digit_inside, D|exact I].
  - injection E as <- <- <-. split; [reflexivity|]. exists []. split; [reflexivity|constructor].
Qed.

Context {A : Type}.
Variable as_int : arg A -> option Z.
Variable args : list (arg A).
Notation n := (length args).
Definition verbs (o : list (chunk A)) : Prop := ~ In CNoVerb o.
Lemma finish_app fl wid prec x s pre o x' r : finish args fl wid prec x s pre = (o, x', r) -> verbs o ->
  finish args fl wid prec x (s ++ ap) pre = (o, x', r ++ ap) /\ exists q, s = q ++ r.
Proof.
  unfold finish. intros E V. destruct s as [|c t]; [injection E as <- _ _; exfalso; apply V, in_or_app; right; left; reflexivity|].
  destruct (verb_at (c :: t)) as [[v rest]|] eqn:Ev; [|injection E as <- _ _; exfalso; apply V, in_or_app; right; left; reflexivity].
  destruct (verb_at_more _ _ _ _ Ev) as [-> [q Q]]. destruct (v =? 37)%N; [injection E as <- <- <-; eauto|].
  destruct (negb (s_good x)); [injection E as <- <- <-; eauto|]. destruct (nth_error args (s_arg x)); injection E as <- <- <-; eauto.
Qed.
Lemma go_app fl wid x after s prec pre o x' r : dsafe s -> go args fl wid x after s prec pre = (o, x', r) -> verbs o ->
  go args fl wid x after (s ++ ap) prec pre = (o, x', r ++ ap) /\ exists q, s = q ++ r.
Proof.
  unfold go. intros D E V. destruct after; [exact (finish_app _ _ _ _ _ _ _ _ _ E V)|].
  destruct (arg_number n s x) as [[y s'] f] eqn:Ea. destruct (arg_number_app _ _ _ _ _ _ D Ea) as (p & -> & _ & ->).
  destruct (finish_app _ _ _ _ _ _ _ _ _ E V) as [E' [q ->]]. split; [exact E'|]. exists (p ++ q). apply app_assoc.
Qed.
Lemma go_end fl wid x after prec pre o x' r : go args fl wid x after [] prec pre = (o, x', r) -> verbs o -> False.
Proof.
  unfold go. intros E V. destruct after; unfold arg_number, finish in E; cbn [verb_at] in E; injection E as <- _ _; apply V, in_or_app; right; left; reflexivity.
Qed.
Lemma with_prec_app fl wid x after s pre o x' r : dsafe s -> with_prec as_int args fl wid x after s pre = (o, x', r) -> verbs o ->
  with_prec as_int args fl wid x after (s ++ ap) pre = (o, x', r ++ ap) /\ exists q, s = q ++ r.
Proof.
  rewrite !with_prec_eq. intros D E V. destruct s as [|c t]; [destruct (go_end _ _ _ _ _ _ _ _ _ E V)|]. cbn [app].
  destruct (Ascii.eqb_spec c ".") as [->|Nc]; [|exact (go_app _ _ _ _ _ _ _ _ _ _ D E V)].
  assert (Dt : dsafe t) by (apply (dsafe_app ["."%char]); [exact D|apply inside_chars; intros z [<-|[]]; cbn; tauto]).
  revert E. generalize (if after then set_bad x else x). intros x0. cbv zeta.
  destruct (arg_number n t x0) as [[y t1] f] eqn:Ea. destruct (arg_number_app _ _ _ _ _ _ Dt Ea) as (p & -> & Ip & Ea'). rewrite Ea'.
  assert (D1 : dsafe t1) by (exact (dsafe_app _ _ Dt Ip)).
  destruct t1 as [|c' t'].
  { intros E. destruct (go_end _ _ _ _ _ _ _ _ _ E V). }
  change ((c' :: t') ++ ap) with (c' :: t' ++ ap). cbv iota. destruct (Ascii.eqb_spec c' "*") as [->|Ns].
  - destruct (int_from_arg as_int args (s_arg y)) as [[z i] k]. intros E.
    assert (D2 : dsafe t') by (apply (dsafe_app ["*"%char]); [exact D1|apply inside_chars; intros w [<-|[]]; cbn; tauto]).
    destruct (go_app _ _ _ _ _ _ _ _ _ _ D2 E V) as [E' [q ->]]. split; [exact E'|]. exists ("."%char :: p ++ "*"%char :: q).
    cbn [app]. rewrite <- app_assoc. reflexivity.
  - change (c' :: t' ++ ap) with ((c' :: t') ++ ap).
    destruct (parsenum 0 false (c' :: t')) as [[z i] t2] eqn:Ep. intros E. destruct t2 as [|y2 t2]; [destruct (go_end _ _ _ _ _ _ _ _ _ E V)|].
    destruct (parsenum_app _ _ _ _ _ _ Ep) as (-> & ds & Eds & Ids); [discriminate|]. rewrite Eds in D1. pose proof (dsafe_app _ _ D1 Ids) as D2.
    destruct (go_app _ _ _ _ _ _ _ _ _ _ D2 E V) as [E' [q Q]]. split; [exact E'|]. rewrite Eds, Q. exists ("."%char :: p ++ ds ++ q).
    cbn [app]. rewrite <- !app_assoc. reflexivity.
Qed.
Lemma directive_app x s o x' r : dsafe s -> directive as_int args x s = (o, x', r) -> verbs o ->
  directive as_int args x (s ++ ap) = (o, x', r ++ ap) /\ exists q, s = q ++ r.
Proof.
  unfold directive. intros D. destruct (span_spec is_flag s) as (fl & s1 & Es & -> & Hf & Ht). rewrite Es.
  assert (Es' : span is_flag ((fl ++ s1) ++ ap) = (fl, s1 ++ ap)).
  { rewrite <- app_assoc. apply span_app; [apply forallb_forall, Hf|]. intros c t E. destruct s1 as [|y s1]; [injection E as <- _; reflexivity|].
    injection E as <- _. exact (Ht _ _ eq_refl). }
  rewrite Es'. cbv zeta. set (x0 := {| s_arg := s_arg x; s_good := true; s_reord := s_reord x |}).
  assert (D1 : dsafe s1) by (apply (dsafe_app _ _ D), inside_chars; intros c I; apply flag_inside, Hf, I).
  assert (W : forall o x' r, (let '(y, s2, after) := arg_number n s1 x0 in
      match s2 with
      | [] => with_prec as_int args fl None y after [] []
      | c :: t => if Ascii.eqb c "*" then let '(z, isint, k) := int_from_arg as_int args (s_arg y) in
            with_prec as_int args fl (if isint : bool then Some z else None) (set_arg y k) false t (if isint : bool then [] else [CBadWidth])
          else let '(z, isnum, s3) := parsenum 0 false s2 in
            with_prec as_int args fl (if isnum : bool then Some z else None) (if after && isnum then set_bad y else y) after s3 []
      end) = (o, x', r) -> verbs o ->
    (let '(y, s2, after) := arg_number n (s1 ++ ap) x0 in
      match s2 with
      | [] => with_prec as_int args fl None y after [] []
      | c :: t => if Ascii.eqb c "*" then let '(z, isint, k) := int_from_arg as_int args (s_arg y) in
            with_prec as_int args fl (if isint : bool then Some z else None) (set_arg y k) false t (if isint : bool then [] else [CBadWidth])
          else let '(z, isnum, s3) := parsenum 0 false s2 in
            with_prec as_int args fl (if isnum : bool then Some z else None) (if after && isnum then set_bad y else y) after s3 []
      end) = (o, x', r ++ ap) /\ exists q, s1 = q ++ r).
  { clear o x' r. intros o x' r. destruct (arg_number n s1 x0) as [[y s2] f] eqn:Ea.
    destruct (arg_number_app _ _ _ _ _ _ D1 Ea) as (p & -> & Ip & ->). pose proof (dsafe_app _ _ D1 Ip) as D2.
    destruct s2 as [|c t].
    { intros E V. rewrite with_prec_eq in E. destruct (go_end _ _ _ _ _ _ _ _ _ E V). }
    change ((c :: t) ++ ap) with (c :: t ++ ap). cbv iota. destruct (Ascii.eqb_spec c "*") as [->|Ns].
    - destruct (int_from_arg as_int args (s_arg y)) as [[z i] k]. intros E V.
      assert (D3 : dsafe t) by (apply (dsafe_app ["*"%char]); [exact D2|apply inside_chars; intros w [<-|[]]; cbn; tauto]).
      destruct (with_prec_app _ _ _ _ _ _ _ _ _ D3 E V) as [E' [q ->]]. split; [exact E'|]. exists (p ++ "*"%char :: q). rewrite <- app_assoc. reflexivity.
    - change (c :: t ++ ap) with ((c :: t) ++ ap). destruct (parsenum 0 false (c :: t)) as [[z i] t2] eqn:Ep. intros E V.
      destruct t2 as [|y2 t2]; [rewrite with_prec_eq in E; destruct (go_end _ _ _ _ _ _ _ _ _ E V)|].
      destruct (parsenum_app _ _ _ _ _ _ Ep) as (-> & ds & Eds & Ids); [discriminate|]. rewrite Eds in D2. pose proof (dsafe_app _ _ D2 Ids) as D3.
      destruct (with_prec_app _ _ _ _ _ _ _ _ _ D3 E V) as [E' [q Q]]. split; [exact E'|]. rewrite Eds, Q. exists (p ++ ds ++ q).
      rewrite <- !app_assoc. reflexivity. }
  assert (P : forall q, s1 = q ++ r -> exists q', fl ++ s1 = q' ++ r) by (intros q ->; exists (fl ++ q); apply app_assoc).
  destruct s1 as [|c t].
  - intros E V. destruct (W _ _ _ E V) as [_ [q Q]]. destruct q; [|discriminate Q]. cbn [app] in Q. subst r.
    cbv iota in E. cbn [arg_number] in E. rewrite with_prec_eq in E. destruct (go_end _ _ _ _ _ _ _ _ _ E V).
  - change ((c :: t) ++ ap) with (c :: t ++ ap). cbv iota.
    destruct ((97 <=? code c)%N && (code c <=? 122)%N).
    + destruct (nth_error args (s_arg x0)) as [v|].
      * intros [= <- <- <-] _. split; [reflexivity|]. apply (P [c]). reflexivity.
      * intros E V. destruct (W _ _ _ E V) as [E' [q Q]]. split; [exact E'|exact (P q Q)].
    + intros E V. destruct (W _ _ _ E V) as [E' [q Q]]. split; [exact E'|exact (P q Q)].
Qed.
Lemma loop_more : forall f x s o, printf_loop as_int f args x s = Some o -> forall g, printf_loop as_int (f + g) args x s = Some o.
Proof.
  induction f as [|f IH]; intros x s o E g; [discriminate|]. cbn [printf_loop Nat.add] in *. destruct s as [|c t]; [exact E|].
  destruct (span _ (c :: t)) as [txt s1]. destruct s1 as [|y s1].
  - destruct (printf_loop as_int f args x []) as [r|] eqn:E1; [|discriminate]. rewrite (IH _ _ _ E1 g). exact E.
  - destruct (directive as_int args x s1) as [[out x'] s3]. destruct (printf_loop as_int f args x' s3) as [r|] eqn:E1; [|discriminate].
    rewrite (IH _ _ _ E1 g). exact E.
Qed.
Lemma closes_app a b : closes (a ++ b) -> closes b.
Proof. intros H p m q ->. apply (H (a ++ p)). apply app_assoc. Qed.
(** the loop on [s] and behind it on [ap] *)
Lemma loop_app res : (forall x, exists g, printf_loop as_int g args x ap = Some res) ->
  forall f x s o, closes s -> printf_loop as_int f args x s = Some o -> verbs o ->
  exists body end_, o = body ++ end_ /\ clean body /\ (end_ = [] \/ exists vs, end_ = [CExtra vs])
    /\ exists g, printf_loop as_int g args x (s ++ ap) = Some (body ++ res).
Proof.
  intros Hr. induction f as [|f IH]; intros x s o C E V; [discriminate|]. cbn [printf_loop] in E. destruct s as [|c t].
  { injection E as <-. exists [], (if negb (s_reord x) && Nat.ltb (s_arg x) n then [CExtra (skipn (s_arg x) args)] else []).
    split; [reflexivity|]. split; [intros vs []|]. split; [destruct (negb _ && _); eauto|]. apply Hr. }
  destruct (span_spec (fun c => negb (Ascii.eqb c "%")) (c :: t)) as (txt & s1 & Es & Et & Hp & Hn). rewrite Es in E.
  set (pre := match txt with [] => [] | _ => [CText txt] end) in *.
  assert (Cp : clean pre) by (unfold pre; destruct txt; [intros vs []|apply clean_one; discriminate]).
  assert (Sp : forall u, span (fun c => negb (Ascii.eqb c "%")) (txt ++ "%"%char :: u) = (txt, "%"%char :: u)).
  { intros u. apply span_app; [apply forallb_forall, Hp|]. intros y z [= <- _]. reflexivity. }
  destruct s1 as [|y s1].
  - rewrite app_nil_r in Et. destruct (printf_loop as_int f args x []) as [r|] eqn:E1; [|discriminate]. injection E as <-.
    destruct (IH x [] r) as (body & en & -> & Cb & En & _).
    + rewrite Et in C. rewrite <- (app_nil_r txt) in C. exact (closes_app _ _ C).
    + exact E1.
    + intros I. apply V, in_or_app. right. exact I.
    + assert (body = []) as ->.
      { destruct f as [|f]; [discriminate|]. cbn [printf_loop] in E1. destruct (negb (s_reord x) && Nat.ltb (s_arg x) n); injection E1 as E1.
        - destruct body as [|z body]; [reflexivity|]. destruct body as [|z' body]; cbn [app] in E1; [|discriminate].
          injection E1 as <- _. exfalso. apply (Cb (skipn (s_arg x) args)). left. reflexivity.
        - symmetry in E1. apply app_eq_nil in E1. apply E1. }
      exists pre, en. split; [reflexivity|]. split; [exact Cp|]. split; [exact En|].
      destruct (Hr x) as [g Hg]. destruct g as [|g]; [discriminate|]. exists (S g). rewrite Et.
      cbn [printf_loop] in Hg |- *. destruct (txt ++ ap) as [|z l] eqn:El; [destruct txt; discriminate El|]. rewrite <- El, Sp. fold pre.
      change (span (fun c => negb (Ascii.eqb c "%")) ap) with (@nil ascii, ap) in Hg. cbv iota in Hg |- *.
      destruct (directive as_int args x e) as [[out x'] s3]. destruct (printf_loop as_int g args x' s3) as [q|]; [|discriminate].
      injection Hg as <-. reflexivity.
  - assert (y = "%"%char) as -> by (specialize (Hn y s1 eq_refl); apply negb_false_iff, Ascii.eqb_eq in Hn; exact Hn).
    destruct (directive as_int args x s1) as [[out x'] s3] eqn:Ed. destruct (printf_loop as_int f args x' s3) as [r|] eqn:E1; [|discriminate].
    injection E as <-. rewrite Et in C. apply closes_app in C.
    assert (D : dsafe s1) by (intros m b -> I; apply (C [] m b eq_refl I)).
    destruct (directive_app _ _ _ _ _ D Ed) as [Ed' [q ->]]; [intros I; apply V, in_or_app; right; apply in_or_app; left; exact I|].
    destruct (IH x' s3 r) as (body & en & -> & Cb & En & g & Hg).
    + change ("%"%char :: q ++ s3) with (("%"%char :: q) ++ s3) in C. exact (closes_app _ _ C).
    + exact E1.
    + intros I. apply V, in_or_app. right. apply in_or_app. right. exact I.
    + exists (pre ++ out ++ body), en. split; [rewrite <- !app_assoc; reflexivity|]. split; [apply clean_app; [exact Cp|apply clean_app; [|exact Cb]]; exact (directive_clean _ _ _ _ _ _ _ Ed)|].
      split; [exact En|]. exists (S g). rewrite Et, <- app_assoc. cbn [printf_loop app].
      destruct (txt ++ "%"%char :: (q ++ s3) ++ ap) as [|z l] eqn:El; [destruct txt; discriminate El|]. rewrite <- El, Sp. fold pre. cbv iota.
      rewrite Ed', Hg, <- !app_assoc. reflexivity.
Qed.
End App.

(** ** the appended directive *)
Section Appended.
Context {A : Type}.
Variable as_int : arg A -> option Z.
Variable args : list (arg A).
Definition nothing : chunk A := CArg {| sp_flags := []; sp_wid := None; sp_prec := None; sp_verb := 115 |} (VStr []).
Lemma appended_loop : args <> [] -> Z.of_nat (length args) < 1000000 -> forall x, exists g,
  printf_loop as_int g (args ++ [VStr []]) x (B "%[" ++ dec_Z (Z.of_nat (length args) + 1) ++ B "]s") = Some [nothing].
Proof.
  intros Ne L x. exists 3%nat. set (w := args ++ [VStr []]).
  destruct (Z.of_nat (length args) + 1) as [|p|p] eqn:Ep; [lia| |lia].
  assert (Lw : length w = S (length args)) by (unfold w; rewrite app_length; cbn; lia).
  assert (Ix : forall y, arg_number (length w) (ix_text (Some p) ++ B "s") y = (set_ix w (Some p) y, B "s", true)).
  { intros y. apply arg_number_ix; [|intros c t [= <- _]; reflexivity]. intros q [= <-]. unfold small. lia. }
  change (B "%[" ++ dec_Z (Zpos p) ++ B "]s") with ("%"%char :: ("["%char :: dec_Z (Zpos p) ++ B "]s")).
  assert (Et : "["%char :: dec_Z (Zpos p) ++ B "]s" = ix_text (Some p) ++ B "s").
  { cbn [ix_text]. rewrite <- !app_assoc. reflexivity. }
  cbn [printf_loop]. change (span (fun c => negb (Ascii.eqb c "%")) ("%"%char :: ?u)) with (@nil ascii, "%"%char :: u). cbv iota.
  assert (Ed : exists x', directive as_int w x ("["%char :: dec_Z (Zpos p) ++ B "]s") = ([nothing], x', []) /\ s_reord x' = true).
  { unfold directive. change (span is_flag ("["%char :: ?u)) with (@nil ascii, "["%char :: u). cbv zeta iota.
    change ((97 <=? code "[")%N && (code "[" <=? 122)%N) with false. cbv iota.
    rewrite Et, Ix. change (B "s") with ["s"%char]. cbv iota. change (Ascii.eqb "s" "*") with false. cbv iota.
    change (parsenum 0 false ["s"%char]) with (0, false, ["s"%char]). cbv iota. cbn [andb]. rewrite with_prec_eq.
    change (Ascii.eqb "s" ".") with false. cbv iota. unfold go, finish. change (verb_at ["s"%char]) with (Some (115%N, @nil ascii)).
    cbv iota. change (115 =? 37)%N with false. cbv iota. unfold set_ix. rewrite Lw.
    destruct (Nat.ltb_spec (Pos.to_nat p - 1) (S (length args))) as [_|G]; [|lia]. cbn [s_good negb s_arg app].
    assert (En : nth_error w (Pos.to_nat p - 1) = Some (VStr [])).
    { unfold w. rewrite nth_error_app2 by lia. replace (Pos.to_nat p - 1 - length args)%nat with 0%nat by lia. reflexivity. }
    rewrite En. eexists. split; [reflexivity|reflexivity]. }
  destruct Ed as (x' & -> & R). cbv iota. rewrite R. reflexivity.
Qed.
End Appended.

(** ** one argument more *)
Section Wide.
Context {A : Type}.
Variable as_int : arg A -> option Z.
Variable args : list (arg A).
Variable z0 : arg A.
Notation n := (length args).
Notation wide := (args ++ [z0]).
Definition fine (o : list (chunk A)) : Prop := forall c, In c o -> ~ complains c.
Definition nsafe (s : bytes) : Prop := forall m i b, s = m ++ "["%char :: i ++ "]"%char :: b -> inside m -> ~ In "]"%char i -> digits_val 0 i <> Some (N.of_nat n + 1)%N.
Definition safe (s : bytes) : Prop := dsafe s /\ nsafe s.
Lemma safe_app p t : safe (p ++ t) -> inside p -> safe t.
Proof.
  intros [D N] I. split; [exact (dsafe_app _ _ D I)|]. intros m i b E Im. apply (N (p ++ m) i b); [rewrite E; apply app_assoc|apply inside_app; assumption].
Qed.
Lemma wide_len : length wide = S n. Proof. rewrite app_length. cbn. lia. Qed.
Lemma wide_nth k v : nth_error args k = Some v -> nth_error wide k = Some v.
Proof. intros E. rewrite nth_error_app1; [exact E|]. apply nth_error_Some. congruence. Qed.
Lemma parsenum_val : forall s (num : N) b z, parsenum (Z.of_N num) b s = (z, true, []) -> exists v, digits_val num s = Some v /\ z = Z.of_N v.
Proof.
  induction s as [|c s IH]; intros num b z E; cbn [parsenum digits_val] in *; [injection E as <- _; eauto|].
  destruct (is_digit c) eqn:D; [|discriminate]. destruct (too_large (Z.of_N num)); [discriminate|].
  assert (G : (48 <= code c)%N) by (destruct c as [[] [] [] [] [] [] [] []]; cbv in D; try discriminate D; cbv; discriminate).
  apply (IH (num * 10 + (code c - 48))%N true). rewrite <- E. f_equal. lia.
Qed.
Lemma arg_number_wide s x : safe s -> arg_number (length wide) s x = arg_number n s x /\
  exists p, s = p ++ snd (fst (arg_number n s x)) /\ inside p.
Proof.
  intros [D N]. split.
  2:{ destruct (arg_number n s x) as [[y r] f] eqn:E. destruct (arg_number_app [] _ _ _ _ _ _ D E) as (p & P & I & _). eauto. }
  destruct s as [|c s]; [reflexivity|]. unfold arg_number. destruct (Ascii.eqb_spec c "[") as [->|Nc]; [|reflexivity].
  destruct (D [] s eq_refl IN_nil) as [I L]. destruct (index_byte_some _ _ I) as (a & b & -> & Na & Ei).
  unfold parse_arg_number. cbn [tl]. rewrite Ei. rewrite firstn_app, firstn_all, Nat.sub_diag. cbn [firstn]. rewrite app_nil_r.
  destruct (Nat.ltb _ 3); [reflexivity|]. destruct (parsenum 0 false a) as [[z ok] l] eqn:Ep. destruct ok; [|reflexivity].
  destruct l as [|y l]; [|reflexivity]. destruct (parsenum_val a 0 false z Ep) as (v & Ev & ->).
  pose proof (N [] a b eq_refl IN_nil Na) as Q. rewrite Ev in Q. rewrite wide_len.
  replace (Z.of_N v - 1 <? Z.of_nat (S n)) with (Z.of_N v - 1 <? Z.of_nat n); [reflexivity|].
  assert (v <> (N.of_nat n + 1)%N) by congruence. lia.
Qed.
Lemma finish_wide fl wid prec x s pre o x' r : finish args fl wid prec x s pre = (o, x', r) -> fine o -> finish wide fl wid prec x s pre = (o, x', r) /\ fine pre.
Proof.
  unfold finish. intros E F.
  assert (P : forall l, o = pre ++ l -> fine pre) by (intros l -> c I; apply F, in_or_app; left; exact I).
  destruct (verb_at s) as [[v rest]|].
  2:{ injection E as <- _ _. exfalso. apply (F CNoVerb); [apply in_or_app; right; left; reflexivity|exact I]. }
  destruct (v =? 37)%N; [injection E as <- <- <-; eauto|].
  destruct (negb (s_good x)); [injection E as <- <- <-; eauto|]. destruct (nth_error args (s_arg x)) as [w|] eqn:En.
  - rewrite (wide_nth _ _ En). injection E as <- <- <-. eauto.
  - injection E as <- _ _. exfalso. apply (F (CMissing v)); [apply in_or_app; right; left; reflexivity|exact I].
Qed.
Lemma go_wide fl wid x after s prec pre o x' r : safe s -> go args fl wid x after s prec pre = (o, x', r) -> fine o ->
  go wide fl wid x after s prec pre = (o, x', r) /\ fine pre.
Proof.
  unfold go. intros D E F. destruct after; [exact (finish_wide _ _ _ _ _ _ _ _ _ E F)|].
  destruct (arg_number_wide s x D) as [-> _]. destruct (arg_number n s x) as [[y s'] f]. exact (finish_wide _ _ _ _ _ _ _ _ _ E F).
Qed.
Lemma int_from_wide k : snd (fst (int_from_arg as_int args k)) = true -> int_from_arg as_int wide k = int_from_arg as_int args k.
Proof.
  unfold int_from_arg. destruct (nth_error args k) as [v|] eqn:En; [|discriminate]. rewrite (wide_nth _ _ En). reflexivity.
Qed.
Lemma parsenum_inside : forall s num b z i r, parsenum num b s = (z, i, r) -> r = [] \/ exists ds, s = ds ++ r /\ inside ds.
Proof.
  intros s num b z i r E. destruct r as [|c r]; [left; reflexivity|right]. destruct (parsenum_app [] _ _ _ _ _ _ E) as (_ & ds & H); [discriminate|]. eauto.
Qed.
Lemma safe_nil : safe []. Proof. split; [intros m b E|intros m i b E]; destruct m; discriminate E. Qed.
Lemma parsenum_safe s num b z i r : safe s -> parsenum num b s = (z, i, r) -> safe r.
Proof. intros S E. destruct (parsenum_inside _ _ _ _ _ _ E) as [->|(ds & -> & I)]; [exact safe_nil|exact (safe_app _ _ S I)]. Qed.
Lemma safe_tl c t : In c (B "#+- 0123456789.*") -> safe (c :: t) -> safe t.
Proof. intros I S. apply (safe_app [c]); [exact S|]. constructor; [exact I|constructor]. Qed.
Lemma with_prec_wide fl wid x after s pre o x' r : safe s -> with_prec as_int args fl wid x after s pre = (o, x', r) -> fine o ->
  with_prec as_int wide fl wid x after s pre = (o, x', r) /\ fine pre.
Proof.
  rewrite !with_prec_eq. intros D E F. destruct s as [|c t]; [exact (go_wide _ _ _ _ _ _ _ _ _ _ D E F)|].
  destruct (Ascii.eqb_spec c ".") as [->|Nc]; [|exact (go_wide _ _ _ _ _ _ _ _ _ _ D E F)].
  assert (Dt : safe t) by (apply (safe_tl "."); [cbn; tauto|exact D]).
  revert E. generalize (if after then set_bad x else x). intros x0. cbv zeta.
  destruct (arg_number_wide t x0 Dt) as [-> (p & Ept & Ip)]. destruct (arg_number n t x0) as [[y t1] f]. cbn [fst snd] in Ept. subst t.
  assert (D1 : safe t1) by exact (safe_app _ _ Dt Ip).
  destruct t1 as [|c' t']; [intros E; exact (go_wide _ _ _ _ _ _ _ _ _ _ D1 E F)|].
  destruct (Ascii.eqb_spec c' "*") as [->|Ns].
  - assert (D2 : safe t') by (apply (safe_tl "*"); [cbn; tauto|exact D1]).
    pose proof (int_from_wide (s_arg y)) as Iw. destruct (int_from_arg as_int args (s_arg y)) as [[z i] k]. cbn [fst snd] in Iw. intros E.
    destruct (i && negb (z <? 0)) eqn:Ei.
    + apply andb_prop in Ei. rewrite (Iw (proj1 Ei)). destruct Ei as [-> ->]. exact (go_wide _ _ _ _ _ _ _ _ _ _ D2 E F).
    + destruct (go_wide _ _ _ _ _ _ _ _ _ _ D2 E F) as [_ G]. exfalso. apply (G CBadPrec); [apply in_or_app; right; left; reflexivity|exact I].
  - destruct (parsenum 0 false (c' :: t')) as [[z i] t2] eqn:Ep. intros E. exact (go_wide _ _ _ _ _ _ _ _ _ _ (parsenum_safe _ _ _ _ _ _ D1 Ep) E F).
Qed.
Lemma directive_wide x s o x' r : safe s -> directive as_int args x s = (o, x', r) -> fine o -> directive as_int wide x s = (o, x', r).
Proof.
  unfold directive. intros D. destruct (span_spec is_flag s) as (fl & s1 & Es & -> & Hf & _). rewrite Es. cbv zeta.
  set (x0 := {| s_arg := s_arg x; s_good := true; s_reord := s_reord x |}).
  assert (D1 : safe s1) by (apply (safe_app _ _ D), inside_chars; intros c I; apply flag_inside, Hf, I).
  assert (W : forall o x' r, (let '(y, s2, after) := arg_number n s1 x0 in
      match s2 with
      | [] => with_prec as_int args fl None y after [] []
      | c :: t => if Ascii.eqb c "*" then let '(z, isint, k) := int_from_arg as_int args (s_arg y) in
            with_prec as_int args fl (if isint : bool then Some z else None) (set_arg y k) false t (if isint : bool then [] else [CBadWidth])
          else let '(z, isnum, s3) := parsenum 0 false s2 in
            with_prec as_int args fl (if isnum : bool then Some z else None) (if after && isnum then set_bad y else y) after s3 []
      end) = (o, x', r) -> fine o ->
    (let '(y, s2, after) := arg_number (length wide) s1 x0 in
      match s2 with
      | [] => with_prec as_int wide fl None y after [] []
      | c :: t => if Ascii.eqb c "*" then let '(z, isint, k) := int_from_arg as_int wide (s_arg y) in
            with_prec as_int wide fl (if isint : bool then Some z else None) (set_arg y k) false t (if isint : bool then [] else [CBadWidth])
          else let '(z, isnum, s3) := parsenum 0 false s2 in
            with_prec as_int wide fl (if isnum : bool then Some z else None) (if after && isnum then set_bad y else y) after s3 []
      end) = (o, x', r)).
  { clear o x' r. intros o x' r. destruct (arg_number_wide s1 x0 D1) as [-> (p & Ept & Ip)]. destruct (arg_number n s1 x0) as [[y s2] f].
    cbn [fst snd] in Ept. rewrite Ept in D1. pose proof (safe_app _ _ D1 Ip) as D2.
    destruct s2 as [|c t]; [intros E F; exact (proj1 (with_prec_wide _ _ _ _ _ _ _ _ _ D2 E F))|].
    destruct (Ascii.eqb_spec c "*") as [->|Ns].
    - assert (D3 : safe t) by (apply (safe_tl "*"); [cbn; tauto|exact D2]).
      pose proof (int_from_wide (s_arg y)) as Iw. destruct (int_from_arg as_int args (s_arg y)) as [[z i] k]. cbn [fst snd] in Iw. intros E F.
      destruct (with_prec_wide _ _ _ _ _ _ _ _ _ D3 E F) as [E' G]. destruct i; [rewrite (Iw eq_refl); exact E'|].
      exfalso. apply (G CBadWidth); [left; reflexivity|exact I].
    - destruct (parsenum 0 false (c :: t)) as [[z i] t2] eqn:Ep. intros E F. exact (proj1 (with_prec_wide _ _ _ _ _ _ _ _ _ (parsenum_safe _ _ _ _ _ _ D2 Ep) E F)). }
  destruct s1 as [|c t]; [exact (W o x' r)|]. cbv iota.
  destruct ((97 <=? code c)%N && (code c <=? 122)%N) eqn:El; [|exact (W o x' r)].
  destruct (nth_error args (s_arg x0)) as [v|] eqn:En.
  - intros E _. cbv iota. rewrite (wide_nth _ _ En). exact E.
  - intros E F. exfalso. revert E. clear W.
    assert (Nb : forall y, (code y < 97)%N -> Ascii.eqb c y = false).
    { intros y L. destruct (Ascii.eqb_spec c y) as [->|]; [lia|reflexivity]. }
    unfold arg_number at 1. rewrite (Nb "["%char), (Nb "*"%char) by reflexivity.
    assert (Pn : parsenum 0 false (c :: t) = (0, false, c :: t)).
    { cbn [parsenum]. replace (is_digit c) with false; [reflexivity|]. symmetry. unfold is_digit, in_range. lia. }
    rewrite Pn. cbn [andb]. rewrite with_prec_eq, (Nb "."%char) by reflexivity. unfold go, arg_number. rewrite (Nb "["%char) by reflexivity.
    unfold finish. cbn [verb_at]. destruct (N.ltb_spec (code c) 128) as [_|G]; [|lia].
    destruct (N.eqb_spec (code c) 37) as [G|_]; [lia|]. change (negb (s_good x0)) with false. cbv iota. rewrite En.
    intros [= <- _ _]. apply (F (CMissing (code c))); [left; reflexivity|exact I].
Qed.
Lemma no_marker_app (a b : list (chunk A)) : no_marker (a ++ b) = no_marker a ++ no_marker b.
Proof. apply filter_app. Qed.
Definition safe_all (s : bytes) : Prop := closes s /\ ~ names s (N.of_nat n + 1).
Lemma safe_all_app a b : safe_all (a ++ b) -> safe_all b.
Proof.
  intros [C N]. split; [exact (closes_app _ _ C)|]. intros (p & m & i & q & -> & H). apply N. exists (a ++ p), m, i, q. split; [apply app_assoc|exact H].
Qed.
Lemma loop_wide : forall f x s o, safe_all s -> printf_loop as_int f args x s = Some o -> fine o ->
  exists o', printf_loop as_int f wide x s = Some o' /\ no_marker o' = no_marker o /\ verbs o'.
Proof.
  induction f as [|f IH]; intros x s o S E F; [discriminate|]. cbn [printf_loop] in *. destruct s as [|c t].
  { injection E as <-. eexists. split; [reflexivity|]. split.
    - destruct (_ && _), (_ && _); reflexivity.
    - unfold verbs. intros I. destruct (negb (s_reord x) && Nat.ltb (s_arg x) (length wide)); [destruct I as [I|I]; [discriminate I|exact I]|exact I]. }
  destruct (span_spec (fun c => negb (Ascii.eqb c "%")) (c :: t)) as (txt & s1 & Es & Et & Hp & Hn). rewrite Es in *.
  set (pre := match txt with [] => [] | _ => [CText txt] end) in *.
  assert (Vp : verbs pre) by (unfold pre, verbs; destruct txt; [intros []|intros [I|[]]; discriminate I]).
  rewrite Et in S.
  destruct s1 as [|y s1].
  - destruct (printf_loop as_int f args x []) as [r|] eqn:E1; [|discriminate]. injection E as <-.
    destruct (IH x [] r) as (o' & -> & En & V).
    + apply (safe_all_app txt). exact S.
    + exact E1.
    + intros k I. apply F, in_or_app. right. exact I.
    + eexists. split; [reflexivity|]. split; [rewrite !no_marker_app, En; reflexivity|]. intros I. apply in_app_or in I. destruct I as [I|I]; [exact (Vp I)|exact (V I)].
  - assert (y = "%"%char) as -> by (specialize (Hn y s1 eq_refl); apply negb_false_iff, Ascii.eqb_eq in Hn; exact Hn).
    apply safe_all_app in S.
    destruct (directive as_int args x s1) as [[out x'] s3] eqn:Ed. destruct (printf_loop as_int f args x' s3) as [r|] eqn:E1; [|discriminate].
    injection E as <-.
    assert (Fo : fine out) by (intros k I; apply F, in_or_app; right; apply in_or_app; left; exact I).
    assert (Ss : safe s1).
    { destruct S as [C N]. split; [intros m b -> I; apply (C [] m b eq_refl I)|]. intros m i b -> Im Ni Ev. apply N. exists [], m, i, b. auto. }
    rewrite (directive_wide _ _ _ _ _ Ss Ed Fo).
    assert (Vo : verbs out) by (intros I; exact (Fo _ I Logic.I)).
    destruct (directive_app [] as_int args x s1 out x' s3 (proj1 Ss) Ed Vo) as [_ [q ->]].
    destruct (IH x' s3 r) as (o' & -> & En & V).
    + apply (safe_all_app ("%"%char :: q)). exact S.
    + exact E1.
    + intros k I. apply F, in_or_app. right. apply in_or_app. right. exact I.
    + eexists. split; [reflexivity|]. split; [rewrite !no_marker_app, En; reflexivity|].
      intros I. apply in_app_or in I. destruct I as [I|I]; [exact (Vp I)|]. apply in_app_or in I. destruct I as [I|I]; [exact (Vo I)|exact (V I)].
Qed.
End Wide.
