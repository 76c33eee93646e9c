From Verif Require Import GoStr GoStrFacts GoFmt FmtSpec GoFmtFacts FormatFacts FmtTextSpec.
From Coq Require Import Lia ZifyBool ZifyNat ZifyN.
Local Open Scope Z_scope.

Section Text.
Context {A : Type}.
Variable print : spec -> arg A -> bytes.
Variable as_int : arg A -> option Z.
Variable extra : list (arg A) -> bytes.
Variable args : list (arg A).
Notation render := (render print extra).
Lemma arg_text_spec d v : arg_text print d v (print_arg print d v).
Proof.
  destruct d as [fl w p verb]. unfold print_arg. cbn [sp_flags sp_wid sp_prec sp_verb].
  assert (O : (forall s, (fl, w, p, verb, v) <> ([], None, None, 115%N, VStr s)) -> (forall z, (fl, w, p, verb, v) <> ([], None, None, 100%N, VInt z)) ->
              arg_text print {| sp_flags := fl; sp_wid := w; sp_prec := p; sp_verb := verb |} v (print {| sp_flags := fl; sp_wid := w; sp_prec := p; sp_verb := verb |} v)).
  { intros H1 H2. apply AT_other; [intros s E; apply (H1 s)|intros z E; apply (H2 z)]; injection E as -> -> -> -> ->; reflexivity. }
  destruct fl as [|c fl]; [|apply O; discriminate]. destruct w; [apply O; discriminate|]. destruct p; [apply O; discriminate|].
  destruct v as [s|z|a]; [| |apply O; discriminate].
  - destruct (N.eqb_spec verb 115) as [->|N]; [apply AT_string|]. apply O; [|discriminate]. intros s' [= E _]. contradiction.
  - destruct (N.eqb_spec verb 100) as [->|N]; [apply AT_number|]. apply O; [discriminate|]. intros z' [= E _]. contradiction.
Qed.
Lemma points_spec ix x : points args ix (s_arg x) (s_arg (set_ix args ix x)) (match ix with None => true | Some p => Nat.leb (Pos.to_nat p) (length args) end)
  /\ s_good (set_ix args ix x) = s_good x && (match ix with None => true | Some p => Nat.leb (Pos.to_nat p) (length args) end).
Proof.
  destruct ix as [p|]; cbn [set_ix].
  - destruct (Nat.ltb_spec (Pos.to_nat p - 1) (length args)), (Nat.leb_spec (Pos.to_nat p) (length args)); try lia; cbn [s_arg s_good];
      rewrite ?andb_true_r, ?andb_false_r; (split; [constructor; lia|reflexivity]).
  - rewrite andb_true_r. split; [constructor|reflexivity].
Qed.
Lemma star_spec k : let '(z, isint, k') := int_from_arg as_int args k in star as_int args k (if isint : bool then Some z else None) k'.
Proof.
  unfold int_from_arg. destruct (nth_error args k) as [v|] eqn:E.
  - destruct (as_int v) as [z|] eqn:Ez.
    + unfold too_large. destruct ((z >? 1000000) || (z <? -1000000)) eqn:T.
      * apply (ST_other as_int args k v E). intros z' E'. rewrite Ez in E'. injection E' as <-. lia.
      * apply (ST_number as_int args k v z E Ez). lia.
    + apply (ST_other as_int args k v E). intros z' E'. congruence.
  - apply ST_missing. apply nth_error_None, E.
Qed.
Lemma render_cons c o : render (c :: o) = show print extra c ++ render o.
Proof. reflexivity. Qed.
Lemma wid_spec w x : let '(q, x', o) := run_wid as_int args w x in
  exists g, width_text as_int args w (s_arg x) (render o) q (s_arg x') g /\ s_good x' = s_good x && g.
Proof.
  destruct w as [|m|ix]; cbn [run_wid].
  - exists true. rewrite andb_true_r. split; [constructor|reflexivity].
  - exists true. rewrite andb_true_r. split; [constructor|reflexivity].
  - unfold star_wid. destruct (points_spec ix x) as [P G]. pose proof (star_spec (s_arg (set_ix args ix x))) as St.
    destruct (int_from_arg as_int args (s_arg (set_ix args ix x))) as [[z []] k].
    + eexists. split; [exact (WT_star _ _ _ _ _ _ _ _ P St)|exact G].
    + eexists. split; [exact (WT_bad _ _ _ _ _ _ _ P St)|exact G].
Qed.
Lemma prec_spec p x pre : (forall ds, p = PNum ds -> exists v, digits_val 0 ds = Some v) -> let '(q, x', o) := run_prec as_int args p x pre in
  exists g o', o = pre ++ o' /\ precision_text as_int args p (s_arg x) (render o') q (s_arg x') g /\ s_good x' = s_good x && g.
Proof.
  intros Hd. destruct p as [| |ds|ix]; cbn [run_prec].
  - exists true, []. rewrite app_nil_r, andb_true_r. repeat split. constructor.
  - exists true, []. rewrite app_nil_r, andb_true_r. repeat split. constructor.
  - destruct (Hd ds eq_refl) as [v E]. rewrite E. exists true, []. rewrite app_nil_r, andb_true_r. repeat split. constructor. exact E.
  - unfold star_prec. destruct (points_spec ix x) as [P G]. pose proof (star_spec (s_arg (set_ix args ix x))) as St.
    destruct (int_from_arg as_int args (s_arg (set_ix args ix x))) as [[z isint] k]. destruct isint; cbn [andb].
    + destruct (Z.ltb_spec z 0) as [L|L]; cbn [negb].
      * eexists _, [CBadPrec]. split; [reflexivity|]. split; [|exact G]. apply (QT_bad _ _ _ _ _ _ _ _ P St). intros n [= <-]. exact L.
      * eexists _, []. split; [symmetry; apply app_nil_r|]. split; [|exact G]. exact (QT_star _ _ _ _ _ _ _ _ P St L).
    + eexists _, [CBadPrec]. split; [reflexivity|]. split; [|exact G]. apply (QT_bad _ _ _ _ _ _ _ _ P St). discriminate.
Qed.
Lemma dir_spec d x : dir_ok d -> let '(o, x') := run_dir as_int args d x in directive_text print as_int args d (s_arg x) (render o) (s_arg x').
Proof.
  intros (_ & V & _ & _ & Hp). unfold run_dir. set (x0 := {| s_arg := s_arg x; s_good := true; s_reord := s_reord x |}).
  pose proof (wid_spec (d_wid d) x0) as W. destruct (run_wid as_int args (d_wid d) x0) as [[w x1] o1]. destruct W as (g1 & W & G1).
  assert (Hd : forall ds, d_prec d = PNum ds -> exists v, digits_val 0 ds = Some v) by (intros ds E; rewrite E in Hp; destruct Hp as (v & E' & _); exists v; exact E').
  pose proof (prec_spec (d_prec d) x1 o1 Hd) as P. destruct (run_prec as_int args (d_prec d) x1 o1) as [[p x2] o2]. destruct P as (g2 & o' & -> & P & G2).
  destruct (points_spec (d_ix d) x2) as [I G3]. set (g3 := match d_ix d with None => true | Some p => Nat.leb (Pos.to_nat p) (length args) end) in *.
  set (x3 := set_ix args (d_ix d) x2) in *.
  assert (G : s_good x3 = g1 && g2 && g3) by (rewrite G3, G2, G1; reflexivity).
  assert (Q : forall c k, verb_text print args d w p (s_arg x3) (s_good x3) (show print extra c) k ->
              directive_text print as_int args d (s_arg x) (render ((o1 ++ o') ++ [c])) k).
  { intros c k T. replace (render ((o1 ++ o') ++ [c])) with (render o1 ++ render o' ++ show print extra c).
    - rewrite G in T. exact (DT_directive _ _ _ _ _ _ _ _ _ _ _ _ _ _ _ _ _ W P I T).
    - unfold GoFmt.render. rewrite !map_app, !concat_app. cbn [map concat]. rewrite app_nil_r, app_assoc. reflexivity. }
  unfold run_verb. destruct (N.eqb_spec (verb_rune (d_verb d)) 37) as [E|E].
  { apply Q, VT_percent. apply verb_percent; assumption. }
  assert (Nv : d_verb d <> B "%") by (intros E'; apply E, verb_percent; assumption).
  destruct (s_good x3) eqn:Eg; cbn [negb].
  - destruct (nth_error args (s_arg x3)) as [v|] eqn:En.
    + apply Q. cbn [s_arg set_arg]. apply (VT_argument _ _ _ _ _ _ v); [exact Nv|exact En|]. apply arg_text_spec.
    + apply Q. apply VT_missing; [exact Nv|]. apply nth_error_None, En.
  - apply Q. apply VT_index. exact Nv.
Qed.
Lemma dir_reord d x : let '(_, x') := run_dir as_int args d x in s_reord x' = s_reord x || named d.
Proof.
  assert (I : forall ix y, s_reord (set_ix args ix y) = s_reord y || match ix with Some _ => true | None => false end).
  { intros [p|] y; cbn [set_ix]; [destruct (Nat.ltb _ _); cbn [s_reord]; rewrite orb_true_r; reflexivity|rewrite orb_false_r; reflexivity]. }
  unfold run_dir. set (x0 := {| s_arg := s_arg x; s_good := true; s_reord := s_reord x |}).
  assert (W : let '(_, x1, _) := run_wid as_int args (d_wid d) x0 in s_reord x1 = s_reord x || match d_wid d with WStar (Some _) => true | _ => false end).
  { destruct (d_wid d) as [| |ix]; cbn [run_wid]; [symmetry; apply orb_false_r..|]. unfold star_wid. destruct (int_from_arg _ _ _) as [[z b] k].
    cbn [s_reord set_arg]. rewrite I. destruct ix; reflexivity. }
  destruct (run_wid as_int args (d_wid d) x0) as [[w x1] o1].
  assert (P : let '(_, x2, _) := run_prec as_int args (d_prec d) x1 o1 in s_reord x2 = s_reord x1 || match d_prec d with PStar (Some _) => true | _ => false end).
  { destruct (d_prec d) as [| | |ix]; cbn [run_prec]; [symmetry; apply orb_false_r..|]. unfold star_prec. destruct (int_from_arg _ _ _) as [[z b] k].
    cbn [s_reord set_arg]. rewrite I. destruct ix; reflexivity. }
  destruct (run_prec as_int args (d_prec d) x1 o1) as [[p x2] o2].
  assert (V : forall fl v pre, s_reord (snd (run_verb args fl w p v (set_ix args (d_ix d) x2) pre)) = s_reord (set_ix args (d_ix d) x2)).
  { intros fl v pre. unfold run_verb. destruct (_ =? 37)%N; [reflexivity|]. destruct (negb _); [reflexivity|]. destruct (nth_error _ _); reflexivity. }
  specialize (V (d_flags d) (d_verb d) o2). destruct (run_verb args _ w p _ _ o2) as [o x']. cbn [snd] in V. rewrite V, I, P, W. unfold named.
  destruct (s_reord x), (d_ix d), (d_wid d) as [| |[|]], (d_prec d) as [| | |[|]]; reflexivity.
Qed.
Lemma pieces_spec ps : forall x, pieces_ok ps -> let '(o, x') := run_pieces as_int args ps x in
  writes print as_int args ps (s_arg x) (render o) (s_arg x') /\ s_reord x' = s_reord x || any_named ps.
Proof.
  induction ps as [|p ps IH]; intros x Ok; cbn [run_pieces].
  - rewrite orb_false_r. split; [constructor|reflexivity].
  - destruct Ok as (Ok1 & Ok2 & _). destruct p as [s|d]; cbn [run_piece].
    + specialize (IH x Ok2). destruct (run_pieces as_int args ps x) as [o x2]. destruct IH as [I1 I2]. split; [|exact I2].
      change (render ([CText s] ++ o)) with (s ++ render o). apply WR_text, I1.
    + cbn [piece_ok] in Ok1. pose proof (dir_spec d x Ok1) as D. pose proof (dir_reord d x) as R. destruct (run_dir as_int args d x) as [o1 x1].
      specialize (IH x1 Ok2). destruct (run_pieces as_int args ps x1) as [o x2]. destruct IH as [I1 I2]. split.
      * replace (render (o1 ++ o)) with (render o1 ++ render o) by (unfold GoFmt.render; rewrite map_app, concat_app; reflexivity).
        exact (WR_directive _ _ _ _ _ _ _ _ _ _ D I1).
      * rewrite I2, R. unfold any_named. cbn [existsb]. rewrite orb_assoc. reflexivity.
Qed.

(** what is written is determined *)
Lemma arg_text_unique d v t t' : arg_text print d v t -> arg_text print d v t' -> t = t'.
Proof.
  intros H H'. destruct H as [s|z|d v N1 N2].
  - inversion H' as [s' E|z' E|d' v' N1 N2 E]; subst; [reflexivity|]. exfalso. apply (N1 s). reflexivity.
  - inversion H' as [s' E|z' E|d' v' N1 N2 E]; subst; [reflexivity|]. exfalso. apply (N2 z). reflexivity.
  - inversion H' as [s' E|z' E|d' v' N1' N2' E]; subst; [exfalso; eapply N1; reflexivity|exfalso; eapply N2; reflexivity|reflexivity].
Qed.
Lemma points_unique ix k k1 g1 k2 g2 : points args ix k k1 g1 -> points args ix k k2 g2 -> k1 = k2 /\ g1 = g2.
Proof. intros H H'. destruct H; inversion H'; subst; auto; lia. Qed.
Lemma star_unique k z1 k1 z2 k2 : star as_int args k z1 k1 -> star as_int args k z2 k2 -> z1 = z2 /\ k1 = k2.
Proof.
  intros H H'. assert (N : forall k v, nth_error args k = Some v -> (k < length args)%nat) by (intros j v E; apply nth_error_Some; congruence).
  destruct H as [k v z E1 E2 L|k v E1 F|k L]; inversion H' as [k' v' z' E1' E2' L' X|k' v' E1' F' X|k' L' X]; subst;
    repeat match goal with H : nth_error args ?k = Some ?v |- _ => pose proof (N _ _ H); revert H end; intros; try lia.
  - split; congruence.
  - assert (v' = v) by congruence. subst. specialize (F' _ E2). lia.
  - assert (v' = v) by congruence. subst. specialize (F _ E2'). lia.
  - auto.
  - auto.
Qed.
Lemma width_unique w k t1 q1 k1 g1 t2 q2 k2 g2 : width_text as_int args w k t1 q1 k1 g1 -> width_text as_int args w k t2 q2 k2 g2 ->
  t1 = t2 /\ q1 = q2 /\ k1 = k2 /\ g1 = g2.
Proof.
  intros H H'. destruct H; inversion H'; subst; auto;
    repeat match goal with
    | H1 : points _ ?ix ?k _ _, H2 : points _ ?ix ?k _ _ |- _ => destruct (points_unique _ _ _ _ _ _ H1 H2) as [? ?]; subst; clear H2
    | H1 : star _ _ ?k _ _, H2 : star _ _ ?k _ _ |- _ => destruct (star_unique _ _ _ _ _ H1 H2) as [? ?]; clear H2; subst; try congruence
    end; auto.
Qed.
Lemma precision_unique w k t1 q1 k1 g1 t2 q2 k2 g2 : precision_text as_int args w k t1 q1 k1 g1 -> precision_text as_int args w k t2 q2 k2 g2 ->
  t1 = t2 /\ q1 = q2 /\ k1 = k2 /\ g1 = g2.
Proof.
  intros H H'. destruct H; inversion H'; subst; auto;
    repeat match goal with
    | H1 : points _ ?ix ?k _ _, H2 : points _ ?ix ?k _ _ |- _ => destruct (points_unique _ _ _ _ _ _ H1 H2) as [? ?]; subst; clear H2
    | H1 : star _ _ ?k _ _, H2 : star _ _ ?k _ _ |- _ => destruct (star_unique _ _ _ _ _ H1 H2) as [? ?]; clear H2; subst
    end; auto.
  all: try (repeat split; congruence).
  all: exfalso; match goal with H : forall n, ?a = Some n -> n < 0 |- _ => specialize (H _ ltac:(eassumption || reflexivity || symmetry; eassumption)) end; lia.
Qed.
Lemma verb_unique d w p k g t1 k1 t2 k2 : verb_text print args d w p k g t1 k1 -> verb_text print args d w p k g t2 k2 -> t1 = t2 /\ k1 = k2.
Proof.
  intros H H'. assert (N : forall k v, nth_error args k = Some v -> (k < length args)%nat) by (intros j v E; apply nth_error_Some; congruence).
  destruct H as [d w p k g E|d w p k E|d w p k E L|d w p k v t E E1 T]; inversion H'; subst; try contradiction; auto;
    repeat match goal with H : nth_error args ?k = Some ?v |- _ => pose proof (N _ _ H); revert H end; intros; try lia.
  split; [|reflexivity]. match goal with H : nth_error args k = Some ?v' |- _ => assert (v' = v) by congruence; subst end. eapply arg_text_unique; eassumption.
Qed.
Lemma directive_unique d k t1 k1 t2 k2 : directive_text print as_int args d k t1 k1 -> directive_text print as_int args d k t2 k2 -> t1 = t2 /\ k1 = k2.
Proof.
  intros H H'. destruct H as [d k t1 w k1 g1 t2' p k2' g2 k3 g3 t3 k4 W P I T]. inversion H' as [d' k' t1' w' k1' g1' t2'' p' k2'' g2' k3' g3' t3' k4' W' P' I' T']; subst.
  destruct (width_unique _ _ _ _ _ _ _ _ _ _ W W') as (<- & <- & <- & <-). destruct (precision_unique _ _ _ _ _ _ _ _ _ _ P P') as (<- & <- & <- & <-).
  destruct (points_unique _ _ _ _ _ _ I I') as (<- & <-). destruct (verb_unique _ _ _ _ _ _ _ _ _ T T') as (<- & <-). auto.
Qed.
Lemma writes_unique ps : forall k t1 k1 t2 k2, writes print as_int args ps k t1 k1 -> writes print as_int args ps k t2 k2 -> t1 = t2 /\ k1 = k2.
Proof.
  induction ps as [|p ps IH]; intros k t1 k1 t2 k2 H H'.
  - inversion H; inversion H'; subst; auto.
  - inversion H as [|s ps' k' t k'' W|d ps' k' u1 j1 u2 j2 D W]; subst; inversion H' as [|s' ps'' l' t' l'' W'|d' ps'' l' u1' i1 u2' i2 D' W']; subst.
    + destruct (IH _ _ _ _ _ W W') as [<- <-]. auto.
    + destruct (directive_unique _ _ _ _ _ _ D D') as [<- <-]. destruct (IH _ _ _ _ _ W W') as [<- <-]. auto.
Qed.
End Text.

Section Format.
Context {A : Type}.
Variable print : spec -> arg A -> bytes.
Variable as_int : arg A -> option Z.
Variable extra : list (arg A) -> bytes.
Lemma format_writes ps args : pieces_ok ps -> args <> [] -> Z.of_nat (length args) < 1000000 ->
  exists k, writes print as_int (args ++ [VStr []]) ps 0 (format_f print as_int extra (format_text ps) args) k.
Proof.
  intros Ok Ne L. rewrite (format_run print as_int extra ps args Ok Ne L). pose proof (pieces_spec print as_int extra (args ++ [VStr []]) ps start Ok) as P.
  destruct (run_pieces as_int (args ++ [VStr []]) ps start) as [o x]. exists (s_arg x). exact (proj1 P).
Qed.
Lemma sprintf_writes ps args : pieces_ok ps -> exists t k, writes print as_int args ps 0 t k
  /\ sprintf print as_int extra (format_text ps) args = t ++ (if any_named ps || Nat.leb (length args) k then [] else B "%!(EXTRA " ++ extra (skipn k args) ++ B ")").
Proof.
  intros Ok. pose proof (pieces_spec print as_int extra args ps start Ok) as P. unfold sprintf. rewrite (chunks_pieces as_int args ps Ok).
  destruct (run_pieces as_int args ps start) as [o x]. destruct P as [W R]. exists (render print extra o), (s_arg x). split; [exact W|].
  cbn [start s_reord orb] in R. rewrite R.
  replace (render print extra (o ++ (if negb (any_named ps) && Nat.ltb (s_arg x) (length args) then [CExtra (skipn (s_arg x) args)] else [])))
    with (render print extra o ++ render print extra (if negb (any_named ps) && Nat.ltb (s_arg x) (length args) then [CExtra (skipn (s_arg x) args)] else []))
    by (unfold GoFmt.render; rewrite map_app, concat_app; reflexivity).
  f_equal. destruct (any_named ps); [reflexivity|]. cbn [negb andb orb].
  destruct (Nat.ltb_spec (s_arg x) (length args)), (Nat.leb_spec (length args) (s_arg x)); try lia; [|reflexivity].
  unfold GoFmt.render. cbn [map concat show]. rewrite app_nil_r. reflexivity.
Qed.
Lemma pieces_ok_text ps d s : pieces_ok ps -> dir_ok d -> s <> [] -> ~ In "%"%char s -> pieces_ok (ps ++ [PDir d; PText s]).
Proof.
  intros H Hd Hs Hn. induction ps as [|p ps IH]; [cbn; auto|]. cbn [app pieces_ok]. destruct H as (H1 & H2 & H3).
  split; [exact H1|]. split; [apply IH, H2|]. destruct p; [|exact I]. destruct ps as [|[|] ps]; cbn [app]; auto.
Qed.
Lemma writes_snoc args ps s : forall k t k', writes print as_int args ps k t k' -> writes print as_int args (ps ++ [PText s]) k (t ++ s) k'.
Proof.
  induction ps as [|p ps IH]; intros k t k' H; inversion H; subst; cbn [app].
  - change ([] ++ s) with s. pose proof (WR_text print as_int args s [] k' [] k' (WR_end _ _ _ _)) as X. rewrite app_nil_r in X. exact X.
  - rewrite <- app_assoc. apply WR_text, IH. assumption.
  - rewrite <- app_assoc. eapply WR_directive; [eassumption|]. apply IH. assumption.
Qed.
Lemma named_snoc ps s : any_named (ps ++ [PText s]) = any_named ps.
Proof. unfold any_named. rewrite existsb_app. cbn. apply orb_false_r. Qed.
Lemma format_open ps d args t k : pieces_ok ps -> dir_ok d -> d_verb d = B "%" -> args <> [] ->
  writes print as_int (args ++ [VStr []]) (ps ++ [PDir d]) 0 t k ->
  format_f print as_int extra (format_text ps ++ open_text d) args =
    t ++ B "[" ++ dec_Z (Z.of_nat (length args) + 1) ++ B "]s" ++
    (if any_named (ps ++ [PDir d]) || Nat.leb (length args + 1) k then [] else B "%!(EXTRA " ++ extra (skipn k (args ++ [VStr []])) ++ B ")").
Proof.
  intros Ok Okd V Ne W. set (s := B "[" ++ dec_Z (Z.of_nat (length args) + 1) ++ B "]s").
  assert (Es : format_text ps ++ open_text d ++ B "%[" ++ dec_Z (Z.of_nat (length args) + 1) ++ B "]s" = format_text (ps ++ [PDir d; PText s])).
  { unfold format_text. rewrite map_app, concat_app. f_equal. cbn [map concat piece_text]. rewrite app_nil_r. unfold dir_text, open_text, s.
    rewrite V, <- !app_assoc. reflexivity. }
  assert (Hn : ~ In "%"%char s).
  { unfold s. rewrite !in_app_iff. intros [H|[H|H]].
    - destruct H as [H|[]]. discriminate.
    - replace (Z.of_nat (length args) + 1) with (Zpos (Pos.of_succ_nat (length args))) in H by lia. apply dec_digits in H. discriminate.
    - destruct H as [H|[H|[]]]; discriminate. }
  assert (Okp : pieces_ok (ps ++ [PDir d; PText s])) by (apply pieces_ok_text; [exact Ok|exact Okd|discriminate|exact Hn]).
  unfold format_f. destruct args as [|a args]; [congruence|]. cbv zeta. rewrite suffix_text, <- app_assoc, Es.
  destruct (sprintf_writes _ (a :: args ++ [VStr []]) Okp) as (t' & k' & W' & E). cbn [app]. rewrite E.
  pose proof (writes_snoc _ _ s _ _ _ W) as W2. rewrite <- app_assoc in W2. cbn [app] in W2.
  destruct (writes_unique _ _ extra _ _ _ _ _ _ _ W2 W') as [<- <-].
  replace (any_named (ps ++ [PDir d; PText s])) with (any_named (ps ++ [PDir d]))
    by (rewrite <- (named_snoc (ps ++ [PDir d]) s), <- app_assoc; reflexivity).
  unfold s. rewrite <- !app_assoc. replace (length (a :: args ++ [VStr []])) with (length (a :: args) + 1)%nat by (cbn [length]; rewrite app_length; reflexivity).
  reflexivity.
Qed.
End Format.
