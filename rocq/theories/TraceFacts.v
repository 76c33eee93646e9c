(** The printed walk computes what the silent one does, and prints the told lines. *)
From Coq Require Import Lia.
From Verif Require Import GoStr GoStrFacts PluralModel PluralSpec PluralEvalFacts PluralTextFacts
  AtnModel AtnSpec GenModel GenSpec GenFacts TraceModel TraceSpec.
Local Open Scope Z_scope.

(** ** The same value *)
Definition same {T} (m : step T) (x : option T) : Prop := forall o, snd (m o) = x.
Lemma same_done : forall T (a : T), same (done a) (Some a).
Proof. intros T a o. reflexivity. Qed.
Lemma same_calc : forall T (m : option T), same (calc m) m.
Proof. intros T [a|] o; reflexivity. Qed.
Lemma same_bind : forall T U (m : step T) x (f : T -> step U) g,
  same m x -> (forall a, same (f a) (g a)) -> same (andthen m f) (obind x g).
Proof.
  intros T U m x f g H1 H2 o. unfold andthen. specialize (H1 o). destruct (m o) as [o' [a|]];
    cbn [snd] in H1; subst x; cbn [obind snd]; [apply H2|reflexivity].
Qed.
Lemma same_debug : forall c l T (f : unit -> step T) x, c <> Nil -> same (f tt) x -> same (andthen (debug c l) f) x.
Proof. intros c l T f x Hc H o. unfold andthen, debug. destruct c; [congruence|apply H|apply H]. Qed.
Lemma same_iff : forall T (m : step T) x y, same m x -> x = y -> same m y.
Proof. intros T m x y H <-. exact H. Qed.
Lemma same_bop : forall c o s, c <> Nil -> same (say_bop c o s) (exit_bop o s).
Proof.
  intros c [t|] s Hc; [|apply same_done]. unfold say_bop. apply same_debug; [exact Hc|].
  assert (E : same (andthen (calc (exit_bop (Some t) s)) (fun s' =>
      andthen (debug c (B "bop done stack=" ++ stack_text s')) (fun _ => done s'))) (exit_bop (Some t) s)).
  { eapply same_iff; [apply (same_bind _ _ _ (exit_bop (Some t) s) _ (fun s' => Some s'))|].
    - apply same_calc.
    - intros a. apply same_debug; [exact Hc|apply same_done].
    - destruct (exit_bop (Some t) s); reflexivity. }
  destruct (beq (snd t) (B "?")); [apply same_debug; [exact Hc|exact E]|exact E].
Qed.
Lemma same_exp : forall c pre bop post s, c <> Nil -> same (say_exp c pre bop post s) (exit_exp pre bop post s).
Proof.
  intros c pre bop post s Hc. unfold say_exp, exit_exp. apply same_bind.
  - destruct pre as [t|]; [|apply same_done]. apply same_debug; [exact Hc|apply same_calc].
  - intros s1. apply same_bind; [apply same_bop, Hc|]. intros s2.
    destruct post as [t|]; [|apply same_done]. apply same_debug; [exact Hc|apply same_calc].
Qed.
Lemma same_primary : forall c n start cs s, c <> Nil -> same (say_primary c n start cs s) (exit_primary n start cs s).
Proof.
  intros c n start cs s Hc. unfold say_primary.
  assert (E : same (andthen (calc (exit_primary n start cs s)) (fun s' =>
     andthen (debug c (B "primary: " ++ flat_map get_text cs ++ B " stack=" ++ stack_text s')) (fun _ => done s')))
     (exit_primary n start cs s)).
  { eapply same_iff; [apply (same_bind _ _ _ (exit_primary n start cs s) _ (fun s' => Some s'))|].
    - apply same_calc.
    - intros a. apply same_debug; [exact Hc|apply same_done].
    - destruct (exit_primary n start cs s); reflexivity. }
  destruct (beq (snd start) (B "(")); [apply same_debug; [exact Hc|exact E]|exact E].
Qed.
Lemma same_walk : forall c n, c <> Nil -> forall t st, same (say_walk c n t st) (gwalk n t st).
Proof.
  intros c n Hc.
  fix IH 1. intros t st.
  assert (A : forall cs st, same
    ((fix all (cs : list tree) (st : stack * Z) : step (stack * Z) :=
      match cs with [] => done st | x :: r => andthen (say_walk c n x st) (fun st => all r st) end) cs st)
    ((fix all (cs : list tree) (st : stack * Z) : option (stack * Z) :=
      match cs with [] => Some st | x :: r => obind (gwalk n x st) (fun st => all r st) end) cs st)).
  { fix IHl 1. intros [|x r] st0; [apply same_done|]. apply same_bind; [apply IH|]. intros a. apply IHl. }
  destruct t as [t|pre bop post cs|start cs|cs]; cbn [say_walk gwalk].
  - apply same_done.
  - apply same_bind; [apply A|]. intros a. apply same_bind; [apply same_exp, Hc|]. intros s. apply same_done.
  - apply same_bind; [apply A|]. intros a. apply same_bind; [apply same_primary, Hc|]. intros s. apply same_done.
  - apply same_bind; [apply A|]. intros a. destruct (pop (fst a)). apply same_done.
Qed.

(** ** Nothing printed *)
Definition mute {T} (m : step T) : Prop := forall o, fst (m o) = o.
Lemma mute_done : forall T (a : T), mute (done a). Proof. intros T a o. reflexivity. Qed.
Lemma mute_calc : forall T (m : option T), mute (calc m). Proof. intros T [a|] o; reflexivity. Qed.
Lemma mute_bind : forall T U (m : step T) (f : T -> step U), mute m -> (forall a, mute (f a)) -> mute (andthen m f).
Proof.
  intros T U m f H1 H2 o. unfold andthen. specialize (H1 o). destruct (m o) as [o' [a|]]; cbn [fst] in *; subst o'.
  - apply H2.
  - reflexivity.
Qed.
Lemma mute_debug : forall c l, c <> Debug -> mute (debug c l).
Proof. intros c l H o. destruct c; [reflexivity|reflexivity|congruence]. Qed.
Ltac hush := repeat first [apply mute_done|apply mute_calc|apply mute_debug; assumption|apply mute_bind; [|intros ?]
  |match goal with |- mute (if ?b then _ else _) => destruct b end
  |match goal with |- mute (match ?b with _ => _ end) => destruct b end].
Lemma mute_walk : forall c n, c <> Debug -> forall t st, mute (say_walk c n t st).
Proof.
  intros c n Hc. fix IH 1. intros t st.
  assert (A : forall cs st, mute
    ((fix all (cs : list tree) (st : stack * Z) : step (stack * Z) :=
      match cs with [] => done st | x :: r => andthen (say_walk c n x st) (fun st => all r st) end) cs st)).
  { fix IHl 1. intros [|x r] st0; [apply mute_done|]. apply mute_bind; [apply IH|]. intros a. apply IHl. }
  destruct t as [t|pre bop post cs|start cs|cs]; cbn [say_walk].
  - apply mute_done.
  - apply mute_bind; [apply A|]. intros a. unfold say_exp, say_prefix, say_bop, say_postfix. hush.
  - apply mute_bind; [apply A|]. intros a. unfold say_primary. hush.
  - apply mute_bind; [apply A|]. intros a. destruct (pop (fst a)). apply mute_done.
Qed.

(** ** A nil context *)
Lemma nil_bind : forall T U (m : step T) (f : T -> step U), (forall o, snd (m o) = None) ->
  forall o, snd (andthen m f o) = None.
Proof. intros T U m f H o. unfold andthen. specialize (H o). destruct (m o) as [o' [a|]]; [discriminate|reflexivity]. Qed.
Lemma nil_after : forall T U (m : step T) (f : T -> step U), (forall a o, snd (f a o) = None) ->
  forall o, snd (andthen m f o) = None.
Proof. intros T U m f H o. unfold andthen. destruct (m o) as [o' [a|]]; [apply H|reflexivity]. Qed.
Lemma nil_primary : forall n start cs s o, snd (say_primary Nil n start cs s o) = None.
Proof.
  intros n start cs s. unfold say_primary. apply nil_after. intros _. apply nil_after. intros s'.
  apply nil_bind. reflexivity.
Qed.
Lemma nil_prim : forall n start cs st o, snd (say_walk Nil n (PrimaryContext start cs) st o) = None.
Proof.
  intros n start cs st. cbn [say_walk]. apply nil_after. intros a. apply nil_bind. apply nil_primary.
Qed.
Lemma nil_walk : forall n e st o, snd (say_walk Nil n (tree_of e) st o) = None.
Proof.
  intros n. induction e as [ds| |e IH|op e IH|op e IH|op a IHa b IHb|a IHa b IHb c IHc]; intros st o.
  - simpl say_walk. apply nil_bind. intros o'. apply nil_bind. intros o2.
    exact (nil_prim n (as_token (KInt ds)) [leaf (KInt ds)] st o2).
  - simpl say_walk. apply nil_bind. intros o'. apply nil_bind. intros o2.
    exact (nil_prim n (as_token KN) [leaf KN] st o2).
  - simpl say_walk. apply nil_bind. intros o'. apply nil_bind. intros o2.
    exact (nil_prim n (as_token KLP) [leaf KLP; tree_of e; leaf KRP] st o2).
  - simpl say_walk. apply nil_bind. intros o'. apply nil_bind. intros o2. apply IH.
  - simpl say_walk. apply nil_bind. intros o'. apply nil_after. intros st'. apply nil_bind. apply IH.
  - simpl say_walk. apply nil_bind. intros o'. apply nil_bind. intros o2. apply IHa.
  - simpl say_walk. apply nil_bind. intros o'. apply nil_bind. intros o2. apply IHa.
Qed.

(** ** The lines *)
Lemma row_is : forall s, stack_text s = row (rev s).
Proof. reflexivity. Qed.
Lemma told_val : forall n vs e v ls, told n vs e v ls -> val n e v.
Proof.
  intros n vs e v ls H. induction H.
  - constructor.
  - constructor. apply H.
  - constructor. assumption.
  - econstructor; eassumption.
  - econstructor; eassumption.
  - econstructor; eassumption.
  - destruct (Z.eqb_spec x 1) as [->|N]; subst v; [eapply V_cond_t|eapply V_cond_f]; eassumption.
Qed.
Lemma val_told : forall n e v, lits_ok e -> val n e v -> forall vs, exists ls, told n vs e v ls.
Proof.
  intros n e v L H. induction H; cbn [lits_ok] in L; intros vs.
  - eexists. apply T_int. split; [|assumption]. pose proof (numeral_nonneg ds (proj2 L)). lia.
  - eexists. apply T_var.
  - destruct (IHval L vs) as [ls IH]. eexists. apply T_paren. exact IH.
  - destruct (IHval L vs) as [ls IH]. eexists. eapply T_post; eassumption.
  - destruct (IHval L vs) as [ls IH]. eexists. eapply T_pre; eassumption.
  - destruct L as [La Lb]. destruct (IHval1 La vs) as [l1 I1]. destruct (IHval2 Lb (vs ++ [x])) as [l2 I2].
    eexists. eapply T_bin; eassumption.
  - destruct L as (La & Lb & Lc). destruct (IHval1 La vs) as [l1 I1]. destruct (IHval2 Lb (vs ++ [1])) as [l2 I2].
    destruct (IHval3 Lc (vs ++ [1; y])) as [l3 I3]. eexists. eapply T_cond; try eassumption. reflexivity.
  - destruct L as (La & Lb & Lc). destruct (IHval1 La vs) as [l1 I1]. destruct (IHval2 Lb (vs ++ [x])) as [l2 I2].
    destruct (IHval3 Lc (vs ++ [x; y])) as [l3 I3]. eexists. eapply T_cond; try eassumption.
    destruct (Z.eqb_spec x 1); [congruence|reflexivity].
Qed.
Lemma told_same : forall n vs vs' e v v' ls ls', told n vs e v ls -> told n vs' e v' ls' -> v = v'.
Proof. intros. eapply (val_fun n); eapply told_val; eassumption. Qed.
Lemma told_fun : forall n vs e v ls, told n vs e v ls -> forall v' ls', told n vs e v' ls' -> v = v' /\ ls = ls'.
Proof.
  intros n vs e v ls H v' ls' H'. split; [exact (told_same _ _ _ _ _ _ _ _ H H')|].
  revert v' ls' H'. induction H; intros w lw H'; inversion H'; subst.
  - reflexivity.
  - reflexivity.
  - match goal with K : told n vs e ?u ?l |- _ => assert (l = ls) as -> by (symmetry; exact (IHtold _ _ K));
      assert (u = v) as -> by exact (told_same _ _ _ _ _ _ _ _ K H) end. reflexivity.
  - match goal with K : told n vs e ?u' ?l |- _ => assert (l = ls) as -> by (symmetry; exact (IHtold _ _ K));
      assert (u' = u) as -> by exact (told_same _ _ _ _ _ _ _ _ K H) end. reflexivity.
  - match goal with K : told n vs e ?u' ?l |- _ => assert (l = ls) as -> by (symmetry; exact (IHtold _ _ K));
      assert (u' = u) as -> by exact (told_same _ _ _ _ _ _ _ _ K H) end. reflexivity.
  - match goal with K : told n vs a ?u' ?l |- _ => assert (u' = x) as -> by exact (told_same _ _ _ _ _ _ _ _ K H);
      assert (l = ls1) as -> by (symmetry; exact (IHtold1 _ _ K)) end.
    match goal with K : told n _ b ?u' ?l |- _ => assert (u' = y) as -> by exact (told_same _ _ _ _ _ _ _ _ K H0);
      assert (l = ls2) as -> by (symmetry; exact (IHtold2 _ _ K)) end.
    match goal with |- _ = _ ++ _ ++ [_; _ ++ row (vs ++ [?z])] => assert (z = v) as -> end; [|reflexivity].
    eapply told_same; [exact H'|]. eapply T_bin; eassumption.
  - match goal with K : told n vs a ?u' ?l |- _ => assert (u' = x) as -> by exact (told_same _ _ _ _ _ _ _ _ K H);
      assert (l = ls1) as -> by (symmetry; exact (IHtold1 _ _ K)) end.
    match goal with K : told n _ b ?u' ?l |- _ => assert (u' = y) as -> by exact (told_same _ _ _ _ _ _ _ _ K H0);
      assert (l = ls2) as -> by (symmetry; exact (IHtold2 _ _ K)) end.
    match goal with K : told n _ c ?u' ?l |- _ => assert (u' = z) as -> by exact (told_same _ _ _ _ _ _ _ _ K H1);
      assert (l = ls3) as -> by (symmetry; exact (IHtold3 _ _ K)) end.
    reflexivity.
Qed.
(** what the walk leaves *)
Lemma leaves_value : forall n e v, int64 n -> lits_ok e -> val n e v ->
  forall s r, gwalk n (tree_of e) (s, r) = Some (v :: s, r).
Proof.
  intros n e v Hn L V s r. rewrite (gwalk_is n e s r L).
  destruct (walk_spec n e Hn L) as [(u & U & _ & W)|[F _]].
  - rewrite W, (val_fun n e u v U V). reflexivity.
  - destruct (val_not_faults n e v Hn L V F).
Qed.
Lemma lines_app : forall a b, lines (a ++ b) = lines a ++ lines b.
Proof. intros a b. unfold lines. apply flat_map_app. Qed.
Lemma row_top : forall vs v, row (vs ++ [v]) = stack_text (v :: rev vs).
Proof. intros vs v. rewrite row_is. cbn [rev]. rewrite rev_involutive. reflexivity. Qed.
Lemma row_top2 : forall vs u v, row (vs ++ [u; v]) = stack_text (v :: u :: rev vs).
Proof. intros vs u v. rewrite row_is. cbn [rev]. rewrite rev_involutive, <- app_assoc. reflexivity. Qed.
Lemma row_top3 : forall vs t u v, row (vs ++ [t; u; v]) = stack_text (v :: u :: t :: rev vs).
Proof. intros vs t u v. rewrite row_is. cbn [rev]. rewrite rev_involutive, <- !app_assoc. reflexivity. Qed.
Lemma rev_top : forall (vs : list Z) v, rev (vs ++ [v]) = v :: rev vs.
Proof. intros. apply rev_unit. Qed.
Lemma rev_top2 : forall (vs : list Z) u v, rev (vs ++ [u; v]) = v :: u :: rev vs.
Proof. intros. rewrite rev_app_distr. reflexivity. Qed.
Section Exits.
  Variables (n : Z) (Hn : int64 n).
  Lemma exits_pre : forall op e u v s, lits_ok e -> val n e u -> pre_val op u v ->
    exit_prefix (label (pre_text op)) (u :: s) = Some (v :: s).
  Proof.
    intros op e u v s L V P. assert (V' : val n (EPre op e) v) by (econstructor; eassumption).
    pose proof (leaves_value n (EPre op e) v Hn L V' s 0) as G. cbn [tree_of gwalk leaf obind] in G.
    rewrite (leaves_value n e u Hn L V) in G. cbn [obind fst snd] in G. unfold exit_exp in G.
    destruct (exit_prefix (label (pre_text op)) (u :: s)) as [x|]; [|discriminate].
    cbn [obind exit_bop exit_postfix] in G. injection G as E. rewrite E. reflexivity.
  Qed.
  Lemma exits_post : forall op e u v s, lits_ok e -> val n e u -> post_val op u v ->
    exit_postfix (label (post_text op)) (u :: s) = Some (v :: s).
  Proof.
    intros op e u v s L V P. assert (V' : val n (EPost op e) v) by (econstructor; eassumption).
    pose proof (leaves_value n (EPost op e) v Hn L V' s 0) as G. cbn [tree_of gwalk leaf obind] in G.
    rewrite (leaves_value n e u Hn L V) in G. cbn [obind fst snd] in G. unfold exit_exp in G.
    cbn [obind exit_bop exit_prefix] in G.
    destruct (exit_postfix (label (post_text op)) (u :: s)) as [x|]; [|discriminate].
    cbn [obind] in G. injection G as E. rewrite E. reflexivity.
  Qed.
  Lemma exits_bin : forall op a b x y v s, lits_ok a -> lits_ok b -> val n a x -> val n b y -> bin_val op x y v ->
    exit_bop (label (bin_text op)) (y :: x :: s) = Some (v :: s).
  Proof.
    intros op a b x y v s La Lb Va Vb P. assert (V' : val n (EBin op a b) v) by (econstructor; eassumption).
    pose proof (leaves_value n (EBin op a b) v Hn (conj La Lb) V' s 0) as G. cbn [tree_of gwalk leaf obind] in G.
    rewrite (leaves_value n a x Hn La Va) in G. cbn [obind fst snd] in G.
    rewrite (leaves_value n b y Hn Lb Vb) in G. cbn [obind fst snd] in G. unfold exit_exp in G.
    cbn [obind exit_prefix] in G.
    destruct (exit_bop (label (bin_text op)) (y :: x :: s)) as [w|]; [|discriminate].
    cbn [obind exit_postfix] in G. injection G as E. rewrite E. reflexivity.
  Qed.
End Exits.
Lemma exits_cond : forall x y z s, exit_bop (label KQ) (z :: y :: x :: s) = Some ((if x =? 1 then y else z) :: s).
Proof. reflexivity. Qed.
Lemma bin_not_q : forall op, beq (text (bin_text op)) (B "?") = false.
Proof. intros []; reflexivity. Qed.
Lemma told_said : forall n vs e v ls, int64 n -> told n vs e v ls -> lits_ok e ->
  forall r o, say_walk Debug n (tree_of e) (rev vs, r) o = (o ++ lines ls, Some (v :: rev vs, r)).
Proof.
  intros n vs e v ls Hn H.
  induction H as [vs|vs ds I|vs e v ls H IH|vs op e u v ls H IH P|vs op e u v ls H IH P
    |vs op a b x y v l1 l2 H1 I1 H2 I2 P|vs a b c x y z v l1 l2 l3 H1 I1 H2 I2 H3 I3 P];
    cbn [lits_ok]; intros L r o.
  - cbn [tree_of leaf say_walk]. unfold andthen, done. cbn [fst snd].
    unfold lines. cbn [flat_map]. rewrite row_top, app_nil_r. reflexivity.
  - assert (E : forall s, exit_primary n (as_token (KInt ds)) [leaf (KInt ds)] s = Some (numeral ds :: s)).
    { intros s. unfold exit_primary. cbn [as_token snd text leaf flat_map get_text]. rewrite app_nil_r.
      rewrite (parse_int_numeral ds L). destruct I as [_ I]. destruct (Z.ltb_spec (numeral ds) (2 ^ 63)); [|lia].
      destruct ds as [|d ds]; [destruct L; congruence|].
      assert (D : (48 <= code d <= 57)%N) by (apply L; left; reflexivity).
      destruct (beq (d :: ds) (B "n")) eqn:E1.
      { apply beq_eq in E1. injection E1 as -> ->. vm_compute in D. destruct D as [_ D]. congruence. }
      destruct (beq (d :: ds) (B "(")) eqn:E2.
      { apply beq_eq in E2. injection E2 as -> ->. vm_compute in D. destruct D as [D _]. congruence. }
      reflexivity. }
    cbn [tree_of say_walk]. unfold leaf at 1. cbn [say_walk]. unfold andthen, done. cbn [fst snd].
    unfold say_primary. rewrite E.
    assert (N : beq (text (KInt ds)) (B "(") = false).
    { destruct (beq _ _) eqn:B1; [|reflexivity]. apply beq_eq in B1. cbn [text] in B1. subst ds.
      destruct L as [_ D]. specialize (D _ (or_introl eq_refl)). vm_compute in D. destruct D; congruence. }
    cbn [as_token snd]. rewrite N. unfold andthen, done, calc, debug, say_exp, say_prefix, say_bop, say_postfix.
    cbn [flat_map leaf get_text as_token snd text lines]. unfold andthen, done. cbn [fst snd].
    unfold lines. cbn [flat_map]. rewrite row_top, !app_nil_r. rewrite <- ?app_assoc. reflexivity.
  - cbn [tree_of leaf say_walk]. unfold andthen, done. cbn [fst snd].
    rewrite (IH L r o). unfold say_primary, exit_primary, say_exp, say_prefix, say_bop, say_postfix.
    cbn [as_token snd fst text]. change (beq (B "(") (B "(")) with true. change (beq (B "(") (B "n")) with false.
    unfold andthen, done, calc, debug. unfold done.
    unfold leaf. cbn [flat_map get_text as_token snd text]. rewrite (get_text_is e).
    rewrite lines_app. unfold lines at 3. cbn [flat_map].
    rewrite !row_top. unfold spelled. cbn [fst snd]. cbv beta iota. cbn [fst snd]. f_equal. rewrite <- !app_assoc. reflexivity.
  - cbn [tree_of leaf say_walk]. unfold andthen, done. cbn [fst snd].
    rewrite (IH L r o). unfold say_exp, say_prefix, say_bop, say_postfix. cbn [fst snd].
    rewrite (exits_pre n Hn op e u v (rev vs) L (told_val _ _ _ _ _ H) P).
    unfold label, andthen, done, calc, debug. unfold done. cbn [as_token snd].
    rewrite lines_app. unfold lines at 3. cbn [flat_map]. rewrite !row_top. cbn [fst snd]. cbv beta iota. cbn [fst snd]. f_equal.
    rewrite ?app_nil_r, <- ?app_assoc. reflexivity.
  - cbn [tree_of leaf say_walk]. unfold andthen, done. cbn [fst snd].
    rewrite (IH L r o). unfold say_exp, say_prefix, say_bop, say_postfix. cbn [fst snd].
    unfold andthen, done. cbv beta iota. cbn [fst snd].
    rewrite (exits_post n Hn op e u v (rev vs) L (told_val _ _ _ _ _ H) P).
    unfold label, andthen, done, calc, debug. unfold done. cbn [as_token snd].
    rewrite lines_app. unfold lines at 3. cbn [flat_map]. rewrite !row_top. cbn [fst snd]. cbv beta iota. cbn [fst snd]. f_equal.
    rewrite ?app_nil_r, <- ?app_assoc. reflexivity.
  - destruct L as [La Lb].
    cbn [tree_of leaf say_walk]. unfold andthen, done. cbn [fst snd].
    rewrite (I1 La r o). rewrite <- rev_top. rewrite (I2 Lb r _). rewrite rev_top.
    unfold say_exp, say_prefix, say_bop, say_postfix. cbn [fst snd].
    unfold andthen, done. cbv beta iota. cbn [fst snd].
    rewrite (exits_bin n Hn op a b x y v (rev vs) La Lb (told_val _ _ _ _ _ H1) (told_val _ _ _ _ _ H2) P).
    unfold label. cbn [as_token snd]. rewrite (bin_not_q op).
    unfold andthen, done, calc, debug. unfold done. cbn [as_token snd].
    rewrite !lines_app. unfold lines at 5. cbn [flat_map]. rewrite !row_top, !row_top2. cbn [fst snd]. cbv beta iota. cbn [fst snd]. f_equal.
    rewrite ?app_nil_r, <- ?app_assoc. reflexivity.
  - destruct L as (La & Lb & Lc). subst v.
    cbn [tree_of leaf say_walk]. unfold andthen, done. cbn [fst snd].
    rewrite (I1 La r o). rewrite <- rev_top. rewrite (I2 Lb r _). rewrite rev_top.
    rewrite <- rev_top2. rewrite (I3 Lc r _). rewrite rev_top2.
    unfold say_exp, say_prefix, say_bop, say_postfix. cbn [fst snd].
    unfold andthen, done. cbv beta iota. cbn [fst snd].
    rewrite (exits_cond x y z (rev vs)).
    unfold label. cbn [as_token snd text]. change (beq (B "?") (B "?")) with true.
    unfold andthen, done, calc, debug. unfold done. cbn [as_token snd].
    rewrite !lines_app. unfold lines at 7. cbn [flat_map]. rewrite !row_top, !row_top3. cbn [fst snd]. cbv beta iota. cbn [fst snd]. f_equal.
    rewrite ?app_nil_r, <- ?app_assoc. reflexivity.
Qed.

(** ** The lines before a fault *)
Lemma stops_faults : forall n vs e ls, stops n vs e ls -> faults n e.
Proof.
  intros n vs e ls H. induction H.
  - apply F_int. assumption.
  - apply F_paren. assumption.
  - apply F_pre. assumption.
  - apply F_post. assumption.
  - apply F_bin_l. assumption.
  - apply F_bin_r. assumption.
  - destruct H1 as [[K ->]|[K L]].
    + apply F_div; [exact K|]. eapply told_val; eassumption.
    + eapply F_sh; [exact K| |exact L]. eapply told_val; eassumption.
  - apply F_cond_a. assumption.
  - apply F_cond_b. assumption.
  - apply F_cond_c. assumption.
Qed.
Lemma either : forall n e, int64 n -> lits_ok e -> (exists v, val n e v) \/ faults n e.
Proof.
  intros n e Hn L. destruct (walk_spec n e Hn L) as [(v & V & _)|[F _]]; [left; exists v; exact V|right; exact F].
Qed.
Lemma faults_stops : forall n e, int64 n -> lits_ok e -> faults n e -> forall vs, exists ls, stops n vs e ls.
Proof.
  intros n e Hn. induction e as [ds| |e IH|o e IH|o e IH|o a IHa b IHb|a IHa b IHb c IHc];
    cbn [lits_ok]; intros L F vs.
  - inversion F; subst. exists []. apply S_int. assumption.
  - inversion F.
  - inversion F; subst. destruct (IH L ltac:(assumption) vs) as [ls K]. exists ls. apply S_paren, K.
  - inversion F; subst. destruct (IH L ltac:(assumption) vs) as [ls K]. exists ls. apply S_post, K.
  - inversion F; subst. destruct (IH L ltac:(assumption) vs) as [ls K]. exists ls. apply S_pre, K.
  - destruct L as [La Lb]. destruct (either n a Hn La) as [[x Va]|Fa].
    2: { destruct (IHa La Fa vs) as [ls K]. exists ls. apply S_bin_l, K. }
    destruct (val_told n a x La Va vs) as [l1 T1].
    destruct (either n b Hn Lb) as [[y Vb]|Fb].
    2: { destruct (IHb Lb Fb (vs ++ [x])) as [ls K]. eexists. eapply S_bin_r; eassumption. }
    destruct (val_told n b y Lb Vb (vs ++ [x])) as [l2 T2].
    eexists. eapply S_bin; [eassumption|eassumption|].
    inversion F; subst.
    + destruct (val_not_faults n a x Hn La Va ltac:(assumption)).
    + destruct (val_not_faults n b y Hn Lb Vb ltac:(assumption)).
    + left. split; [assumption|]. eapply (val_fun n b); eassumption.
    + right. split; [assumption|]. match goal with K : val n b ?z |- _ => rewrite (val_fun n b y z Vb K) end. assumption.
  - destruct L as (La & Lb & Lc). destruct (either n a Hn La) as [[x Va]|Fa].
    2: { destruct (IHa La Fa vs) as [ls K]. exists ls. apply S_cond_a, K. }
    destruct (val_told n a x La Va vs) as [l1 T1].
    destruct (either n b Hn Lb) as [[y Vb]|Fb].
    2: { destruct (IHb Lb Fb (vs ++ [x])) as [ls K]. eexists. eapply S_cond_b; eassumption. }
    destruct (val_told n b y Lb Vb (vs ++ [x])) as [l2 T2].
    inversion F; subst.
    + destruct (val_not_faults n a x Hn La Va ltac:(assumption)).
    + destruct (val_not_faults n b y Hn Lb Vb ltac:(assumption)).
    + destruct (IHc Lc ltac:(assumption) (vs ++ [x; y])) as [ls K]. eexists. eapply S_cond_c; eassumption.
Qed.
Lemma stops_none : forall n e, int64 n -> lits_ok e -> faults n e -> forall st, gwalk n (tree_of e) st = None.
Proof.
  intros n e Hn L F [s r]. rewrite (gwalk_is n e s r L).
  destruct (walk_spec n e Hn L) as [(u & U & _ & W)|[_ W]]; [|rewrite W; reflexivity].
  destruct (val_not_faults n e u Hn L U F).
Qed.
Lemma exits_fault : forall n op a b x y s, int64 n -> lits_ok a -> lits_ok b -> val n a x -> val n b y ->
  faults n (EBin op a b) -> exit_bop (label (bin_text op)) (y :: x :: s) = None.
Proof.
  intros n op a b x y s Hn La Lb Va Vb F.
  pose proof (stops_none n (EBin op a b) Hn (conj La Lb) F (s, 0)) as G. cbn [tree_of gwalk leaf obind] in G.
  rewrite (leaves_value n a x Hn La Va) in G. cbn [obind fst snd] in G.
  rewrite (leaves_value n b y Hn Lb Vb) in G. cbn [obind fst snd] in G. unfold exit_exp in G.
  cbn [obind exit_prefix] in G.
  destruct (exit_bop (label (bin_text op)) (y :: x :: s)) as [w|]; [discriminate|reflexivity].
Qed.
Lemma stops_said : forall n vs e ls, int64 n -> stops n vs e ls -> lits_ok e ->
  forall r o, say_walk Debug n (tree_of e) (rev vs, r) o = (o ++ lines ls, None).
Proof.
  intros n vs e ls Hn H.
  induction H as [vs ds I|vs e ls H IH|vs op e ls H IH|vs op e ls H IH|vs op a b ls H IH
    |vs op a b x l1 l2 T1 H IH|vs op a b x y l1 l2 T1 T2 P
    |vs a b c ls H IH|vs a b c x l1 l2 T1 H IH|vs a b c x y l1 l2 l3 T1 T2 H IH];
    cbn [lits_ok]; intros L r o.
  - assert (E : forall s, exit_primary n (as_token (KInt ds)) [leaf (KInt ds)] s = None).
    { intros s. unfold exit_primary. cbn [as_token snd text leaf flat_map get_text]. rewrite app_nil_r.
      rewrite (parse_int_numeral ds L). destruct (Z.ltb_spec (numeral ds) (2 ^ 63)); [lia|].
      destruct ds as [|d ds]; [destruct L; congruence|].
      assert (D : (48 <= code d <= 57)%N) by (apply L; left; reflexivity).
      destruct (beq (d :: ds) (B "n")) eqn:E1.
      { apply beq_eq in E1. injection E1 as -> ->. vm_compute in D. destruct D as [_ D]. congruence. }
      destruct (beq (d :: ds) (B "(")) eqn:E2.
      { apply beq_eq in E2. injection E2 as -> ->. vm_compute in D. destruct D as [D _]. congruence. }
      reflexivity. }
    cbn [tree_of say_walk]. unfold leaf at 1. cbn [say_walk]. unfold andthen, done. cbn [fst snd].
    unfold say_primary. rewrite E.
    assert (N : beq (text (KInt ds)) (B "(") = false).
    { destruct (beq _ _) eqn:B1; [|reflexivity]. apply beq_eq in B1. cbn [text] in B1. subst ds.
      destruct L as [_ D]. specialize (D _ (or_introl eq_refl)). vm_compute in D. destruct D; congruence. }
    cbn [as_token snd]. rewrite N. unfold andthen, done, calc, debug, broken.
    unfold lines. cbn [flat_map]. rewrite app_nil_r. reflexivity.
  - cbn [tree_of leaf say_walk]. unfold andthen, done. cbn [fst snd]. rewrite (IH L r o). reflexivity.
  - cbn [tree_of leaf say_walk]. unfold andthen, done. cbn [fst snd]. rewrite (IH L r o). reflexivity.
  - cbn [tree_of leaf say_walk]. unfold andthen, done. cbn [fst snd]. rewrite (IH L r o). reflexivity.
  - cbn [tree_of leaf say_walk]. unfold andthen, done. cbn [fst snd]. rewrite (IH (proj1 L) r o). reflexivity.
  - destruct L as [La Lb].
    cbn [tree_of leaf say_walk]. unfold andthen, done. cbn [fst snd].
    rewrite (told_said _ _ _ _ _ Hn T1 La r o). rewrite <- rev_top. rewrite (IH Lb r _).
    rewrite lines_app, app_assoc. reflexivity.
  - destruct L as [La Lb].
    cbn [tree_of leaf say_walk]. unfold andthen, done. cbn [fst snd].
    rewrite (told_said _ _ _ _ _ Hn T1 La r o). rewrite <- rev_top. rewrite (told_said _ _ _ _ _ Hn T2 Lb r _).
    rewrite rev_top.
    unfold say_exp, say_prefix, say_bop, say_postfix. cbn [fst snd].
    unfold andthen, done. cbv beta iota. cbn [fst snd].
    rewrite (exits_fault n op a b x y (rev vs) Hn La Lb (told_val _ _ _ _ _ T1) (told_val _ _ _ _ _ T2)
      (stops_faults _ _ _ _ (S_bin _ _ _ _ _ _ _ _ _ T1 T2 P))).
    unfold label. cbn [as_token snd]. rewrite (bin_not_q op).
    unfold andthen, done, calc, debug. unfold broken. cbn [as_token snd].
    rewrite !lines_app. unfold lines at 5. cbn [flat_map]. rewrite !row_top2. cbn [fst snd]. cbv beta iota.
    cbn [fst snd]. f_equal. rewrite ?app_nil_r, <- ?app_assoc. reflexivity.
  - cbn [tree_of leaf say_walk]. unfold andthen, done. cbn [fst snd]. rewrite (IH (proj1 L) r o). reflexivity.
  - destruct L as (La & Lb & Lc).
    cbn [tree_of leaf say_walk]. unfold andthen, done. cbn [fst snd].
    rewrite (told_said _ _ _ _ _ Hn T1 La r o). rewrite <- rev_top. rewrite (IH Lb r _).
    rewrite lines_app, app_assoc. reflexivity.
  - destruct L as (La & Lb & Lc).
    cbn [tree_of leaf say_walk]. unfold andthen, done. cbn [fst snd].
    rewrite (told_said _ _ _ _ _ Hn T1 La r o). rewrite <- rev_top. rewrite (told_said _ _ _ _ _ Hn T2 Lb r _).
    rewrite rev_top. rewrite <- rev_top2. rewrite (IH Lc r _).
    rewrite !lines_app, !app_assoc. reflexivity.
Qed.
