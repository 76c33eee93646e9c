(** Facts about the messages of xtemplate on standard error (XtErrModel) against XtErrSpec. *)
From Coq Require Import Lia ZifyBool ZifyNat ZifyN Sorted.
From Verif Require Import GoStr GoStrFacts GoQuote GoMap GoMapFacts FileModel PoModel PoSpec BlankSpec BlankFacts
  XtModel XtSpec XtKeyFacts XtFacts XtMergeFacts XtRunFacts WriteModel MainModel XtErrModel XtErrSpec.
From Verif Require Import GoFmt FmtSpec GoFmtFacts FormatFacts.
Local Open Scope Z_scope.

(** ** Formats *)
Section Formats.
Variable print : spec -> arg (list bytes) -> bytes.
Variable as_int : arg (list bytes) -> option Z.
Variable extra : list (arg (list bytes)) -> bytes.
Notation errorf := (errorf print as_int extra).
Notation tr_f := (tr_f).
Definition shown (v : arg (list bytes)) : bytes :=
  match v with VStr s => s | VOther l => listed l | VInt _ => [] end.
Definition textual (v : arg (list bytes)) : Prop := match v with VInt _ => False | _ => True end.
(** the pieces of a format with holes *)
Definition hole_dir (v : bytes) : dir :=
  {| d_flags := if beq v (B "+v") then B "+" else []; d_wid := WNone; d_prec := PNone; d_ix := None;
     d_verb := if beq v (B "s") then B "s" else B "v" |}.
Definition text_piece (t : bytes) : list piece := match t with [] => [] | _ => [PText t] end.
Lemma hole_ok v : dir_ok (hole_dir v).
Proof.
  unfold hole_dir. split; cbn [d_flags d_verb d_ix d_wid d_prec].
  - intros c. destruct (beq v (B "+v")); [|intros []]. intros [<-|[]]. cbn. tauto.
  - split.
    + left. destruct (beq v (B "s")); eexists; (split; [reflexivity|]); split; try reflexivity;
        intros I; cbn in I; repeat (destruct I as [I|I]; [discriminate|]); exact I.
    + split; [intros q E; discriminate|]. auto.
Qed.
Lemma hole_text v : In v [B "v"; B "s"; B "+v"] -> dir_text (hole_dir v) = B "%" ++ v.
Proof. intros [<-|[<-|[<-|[]]]]; reflexivity. Qed.
Lemma text_ok t : ~ In "%"%char t -> pieces_ok (text_piece t).
Proof. destruct t; cbn; auto. intros H. split; [split; [discriminate|exact H]|auto]. Qed.
Lemma format_text_piece t ps : format_text (text_piece t ++ ps) = t ++ format_text ps.
Proof. destruct t; reflexivity. Qed.
Lemma reads_pieces f ts : reads f ts -> exists ps, format_text ps = f /\ pieces_ok ps /\ any_named ps = false
  /\ forall args k, Forall textual args -> (k + length ts <= S (length args))%nat -> exists o,
       all_means as_int args ps k o (k + length ts - 1)
       /\ render (vprint print) extra o = fill ts (map shown (skipn k args)).
Proof.
  induction 1 as [t Ht|t v f ts Ht Hv R (ps & E & Ok & Nm & M)].
  - exists (text_piece t). split; [rewrite <- (app_nil_r (text_piece t)), format_text_piece; apply app_nil_r|]. split; [apply text_ok, Ht|].
    split; [destruct t; reflexivity|]. intros args k T L. cbn [length] in L. cbn [fill length].
    replace (k + 1 - 1)%nat with k by lia.
    destruct t as [|c t]; cbn [text_piece].
    + exists []. split; [constructor|reflexivity].
    + exists [CText (c :: t)]. split; [apply M_text, M_nil|]. unfold render. cbn [map concat show]. apply app_nil_r.
  - exists (text_piece t ++ PDir (hole_dir v) :: ps).
    split.
    { rewrite format_text_piece. unfold format_text in *. cbn [map concat piece_text]. rewrite E, (hole_text v Hv), <- app_assoc. reflexivity. }
    split.
    { destruct t as [|c t]; cbn [text_piece app pieces_ok].
      - split; [apply hole_ok|]. split; [exact Ok|]. auto.
      - split; [split; [discriminate|exact Ht]|]. split; [|auto]. split; [apply hole_ok|]. auto. }
    split.
    { unfold any_named in *. rewrite existsb_app. cbn [existsb]. rewrite Nm. destruct t; reflexivity. }
    intros args k T L. cbn [length] in L.
    assert (Hts : (1 <= length ts)%nat) by (clear - R; destruct R; cbn [length]; lia).
    destruct (nth_error args k) as [a|] eqn:A.
    2:{ apply nth_error_None in A. lia. }
    destruct (M args (S k) T) as (o & Mo & Ro); [lia|].
    assert (Sk : skipn k args = a :: skipn (S k) args).
    { clear - A. revert args A. induction k as [|k IH]; intros [|x args] A; try discriminate; cbn [nth_error] in A.
      - cbn. congruence.
      - cbn [skipn]. apply IH, A. }
    assert (Ta : textual a).
    { rewrite Forall_forall in T. apply T. eapply nth_error_In, A. }
    exists ((match t with [] => [] | _ => [CText t] end) ++ [CArg {| sp_flags := d_flags (hole_dir v); sp_wid := None; sp_prec := None; sp_verb := verb_rune (d_verb (hole_dir v)) |} a] ++ o).
    split.
    + assert (D : means as_int args (hole_dir v) k ([] ++ [] ++ [CArg {| sp_flags := d_flags (hole_dir v); sp_wid := None; sp_prec := None; sp_verb := verb_rune (d_verb (hole_dir v)) |} a]) (S k)).
      { change (S k) with (S (at_ix (d_ix (hole_dir v)) k)).
        apply (M_arg as_int args (hole_dir v) k [] None k [] None k a); [|constructor|constructor|exact A].
        unfold hole_dir; cbn [d_verb]. destruct (beq v (B "s")); discriminate. }
      cbn [app] in D. cbn [length]. replace (k + S (length ts) - 1)%nat with (S k + length ts - 1)%nat by (change (@length (list ascii) ts) with (@length bytes ts); lia).
      destruct t as [|c t]; cbn [text_piece app].
      * exact (M_dir as_int args _ _ _ _ _ _ _ D Mo).
      * apply M_text. exact (M_dir as_int args _ _ _ _ _ _ _ D Mo).
    + rewrite Sk. cbn [map]. replace (fill (t :: ts) (shown a :: map shown (skipn (S k) args))) with (t ++ shown a ++ fill ts (map shown (skipn (S k) args)))
        by (destruct ts; [cbn in Hts; lia|reflexivity]). rewrite <- Ro.
      assert (Sh : show (vprint print) extra (CArg {| sp_flags := d_flags (hole_dir v); sp_wid := None; sp_prec := None; sp_verb := verb_rune (d_verb (hole_dir v)) |} a) = shown a).
      { destruct a as [s|z|l]; [|destruct Ta|]; destruct Hv as [<-|[<-|[<-|Hv]]]; try reflexivity; destruct Hv. }
      unfold render. rewrite !map_app, !concat_app. cbn [map concat app]. rewrite Sh, app_nil_r.
      destruct t as [|c t]; [reflexivity|]. cbn [map concat show]. rewrite app_nil_r. reflexivity.
Qed.
Lemma errorf_reads f ts args : reads f ts -> Forall textual args -> length ts = S (length args) ->
  errorf f args = fill ts (map shown args).
Proof.
  intros R T L. destruct (reads_pieces f ts R) as (ps & <- & Ok & Nm & M).
  destruct (M args 0%nat T) as (o & Mo & Ro); [lia|]. cbn [skipn] in Ro.
  unfold XtErrModel.errorf. rewrite (sprintf_means (vprint print) as_int extra ps args o _ Ok Mo), Nm, Ro. cbn [orb].
  rewrite (proj2 (Nat.leb_le (length args) (0 + length ts - 1))) by lia. apply app_nil_r.
Qed.
Lemma errorf_plain f : ~ In "%"%char f -> errorf f [] = f.
Proof. intros H. rewrite (errorf_reads f [f] []); [reflexivity|constructor; exact H|constructor|reflexivity]. Qed.
Lemma tr_f_reads tr f ts args : reads (tr f) ts -> Forall textual args -> args <> [] -> Z.of_nat (length args) < 1000000 ->
  (length ts <= S (length args))%nat -> tr_f tr print as_int extra f args = fill ts (map shown args).
Proof.
  intros R T Ne Sm L. destruct (reads_pieces (tr f) ts R) as (ps & E & Ok & Nm & M).
  destruct (M args 0%nat T) as (o & Mo & Ro); [lia|]. cbn [skipn] in Ro.
  unfold XtErrModel.tr_f. rewrite <- E, (format_means (vprint print) as_int extra ps args o _ Ok Ne Sm Mo). exact Ro.
Qed.
Lemma reads_snoc f ts c : reads f ts -> c <> "%"%char ->
  exists ts', reads (f ++ [c]) ts' /\ length ts' = length ts /\ forall xs, length ts = S (length xs) -> fill ts' xs = fill ts xs ++ [c].
Proof.
  intros R Hc. induction R as [t Ht|t v f ts Ht Hv R (ts' & R' & L' & F')].
  - exists [t ++ [c]]. split; [|split; [reflexivity|]].
    + constructor. intros I. apply in_app_or in I as [I|[I|[]]]; [exact (Ht I)|congruence].
    + intros [|x xs] L; reflexivity.
  - exists (t :: ts'). split; [|split; [cbn [length]; congruence|]].
    + replace ((t ++ B "%" ++ v ++ f) ++ [c]) with (t ++ B "%" ++ v ++ (f ++ [c])) by (rewrite <- !app_assoc; reflexivity).
      constructor; assumption.
    + assert (Hts : (1 <= length ts)%nat) by (clear - R; destruct R; cbn [length]; lia).
      intros [|x xs] L; cbn [length] in L; [lia|]. destruct ts as [|y ts]; [cbn in Hts; lia|]. destruct ts' as [|y' ts']; [discriminate L'|].
      change (fill (t :: y' :: ts') (x :: xs)) with (t ++ x ++ fill (y' :: ts') xs). change (fill (t :: y :: ts) (x :: xs)) with (t ++ x ++ fill (y :: ts) xs).
      rewrite F' by (cbn [length] in *; lia). rewrite <- !app_assoc. reflexivity.
Qed.
Lemma fill_no ts xs : (forall t, In t ts -> ~ In "%"%char t) -> (forall x, In x xs -> ~ In "%"%char x) -> ~ In "%"%char (fill ts xs).
Proof.
  revert xs. induction ts as [|t ts IH]; intros xs H1 H2; cbn [fill]; [intros []|].
  destruct ts as [|u ts]; [apply H1; left; reflexivity|]. destruct xs as [|x xs]; [apply H1; left; reflexivity|]. rewrite !in_app_iff. intros [I|[I|I]].
  - exact (H1 t (or_introl eq_refl) I).
  - exact (H2 x (or_introl eq_refl) I).
  - revert I. apply (IH xs); intros y Hy; [apply H1|apply H2]; right; exact Hy.
Qed.
Lemma reads_no f ts : reads f ts -> forall t, In t ts -> ~ In "%"%char t.
Proof. induction 1 as [t Ht|t v f ts Ht Hv R IH]; intros u [<-|I]; auto. Qed.
End Formats.

(** ** Numbers *)
Definition dval (z : Z) (ds : bytes) : Z := fold_left (fun v c => 10 * v + (Z.of_N (code c) - 48)) ds z.
Definition digits (ds : bytes) : Prop := forall c, In c ds -> (48 <= code c <= 57)%N.
Lemma is_digit_iff c : is_digit c = true <-> (48 <= code c <= 57)%N.
Proof. unfold is_digit, in_range. lia. Qed.
Lemma dval_mono ds : forall z, digits ds -> 0 <= z -> z <= dval z ds.
Proof.
  induction ds as [|c t IH]; intros z H Hz; cbn [dval fold_left]; [lia|]. fold (dval (10 * z + (Z.of_N (code c) - 48)) t).
  assert (Hc : (48 <= code c <= 57)%N) by (apply H; left; reflexivity).
  specialize (IH (10 * z + (Z.of_N (code c) - 48)) (fun x Hx => H x (or_intror Hx))). lia.
Qed.
Lemma dval_app z a b : dval z (a ++ b) = dval (dval z a) b.
Proof. apply fold_left_app. Qed.
Lemma parse_uint_spec s : forall n, (n < 2 ^ 64)%N ->
  match parse_uint n s with
  | inl v => digits s /\ Z.of_N v = dval (Z.of_N n) s /\ (v < 2 ^ 64)%N
  | inr Range => exists ds rest, s = ds ++ rest /\ ds <> [] /\ digits ds /\ 2 ^ 64 <= dval (Z.of_N n) ds
  | inr Syntax => exists ds c rest, s = ds ++ c :: rest /\ digits ds /\ ~ (48 <= code c <= 57)%N /\ dval (Z.of_N n) ds < 2 ^ 64
  end.
Proof.
  induction s as [|c t IH]; intros n Hn; cbn [parse_uint].
  - split; [intros x []|]. split; [reflexivity|exact Hn].
  - destruct (is_digit c) eqn:D.
    2:{ exists [], c, t. split; [reflexivity|]. split; [intros x []|]. split; [rewrite <- is_digit_iff; congruence|].
        cbn [dval fold_left]. lia. }
    apply is_digit_iff in D.
    assert (One : digits [c]) by (intros x [<-|[]]; exact D).
    destruct (N.leb_spec 1844674407370955162 n) as [L|L].
    + exists [c], t. split; [reflexivity|]. split; [discriminate|]. split; [exact One|]. cbn [dval fold_left]. lia.
    + cbv zeta. destruct (N.ltb_spec 18446744073709551615 (n * 10 + (code c - 48))) as [M|M].
      * exists [c], t. split; [reflexivity|]. split; [discriminate|]. split; [exact One|]. cbn [dval fold_left]. lia.
      * assert (E : Z.of_N (n * 10 + (code c - 48)) = 10 * Z.of_N n + (Z.of_N (code c) - 48)) by lia.
        specialize (IH (n * 10 + (code c - 48))%N ltac:(lia)).
        destruct (parse_uint (n * 10 + (code c - 48)) t) as [v|[]].
        -- destruct IH as (I1 & I2 & I3). split; [intros x [<-|Hx]; [exact D|apply I1, Hx]|]. split; [|exact I3].
           rewrite I2, E. reflexivity.
        -- destruct IH as (ds & x & rest & -> & I1 & I2 & I3). exists (c :: ds), x, rest. split; [reflexivity|].
           split; [intros y [<-|Hy]; [exact D|apply I1, Hy]|]. split; [exact I2|]. rewrite E in I3. exact I3.
        -- destruct IH as (ds & rest & -> & I1 & I2 & I3). exists (c :: ds), rest. split; [reflexivity|]. split; [discriminate|].
           split; [intros y [<-|Hy]; [exact D|apply I2, Hy]|]. rewrite E in I3. exact I3.
Qed.
(** sign and body *)
Lemma sign_body s : s <> [] -> exists sg body, s = sg ++ body /\ In sg [[]; B "+"; B "-"]
  /\ (forall sg' ds rest, s = sg' ++ ds ++ rest -> In sg' [[]; B "+"; B "-"] -> ds <> [] -> digits ds -> sg' = sg /\ body = ds ++ rest)
  /\ parse_int_e s = match body with
     | [] => inr Syntax
     | _ => match parse_uint 0 body with
            | inr e => inr e
            | inl n => let z := if beq sg (B "-") then - Z.of_N n else Z.of_N n in
                       if (- 2 ^ 63 <=? z) && (z <? 2 ^ 63) then inl z else inr Range
            end
     end.
Proof.
  destruct s as [|c t]; [congruence|]. intros _.
  assert (Dig : forall ds rest sg', In sg' [[]; B "+"; B "-"] -> ds <> [] -> digits ds -> forall x y, sg' ++ ds ++ rest = x :: y ->
    sg' = [] /\ (48 <= code x <= 57)%N \/ sg' = [x] /\ y = ds ++ rest).
  { intros ds rest sg' I Ne D x y E. destruct I as [<-|[<-|[<-|[]]]].
    - left. split; [reflexivity|]. destruct ds as [|d ds]; [congruence|]. cbn [app] in E. injection E as <- _. apply D. left; reflexivity.
    - right. injection E as <- <-. auto.
    - right. injection E as <- <-. auto. }
  destruct (Ascii.eqb_spec c "-"%char) as [->|Hm]; [|destruct (Ascii.eqb_spec c "+"%char) as [->|Hp]].
  - exists (B "-"), t. split; [reflexivity|]. split; [cbn; tauto|]. split.
    + intros sg' ds rest E I Ne D. symmetry in E. destruct (Dig ds rest sg' I Ne D _ _ E) as [[_ C]|[-> ->]]; [|auto].
      change (code "-"%char) with 45%N in C. lia.
    + unfold parse_int_e. cbn [Ascii.eqb Bool.eqb orb]. destruct t as [|d t]; [reflexivity|].
      pose proof (parse_uint_spec (d :: t) 0 ltac:(lia)) as U. destruct (parse_uint 0 (d :: t)) as [v|e]; [|reflexivity].
      cbn [negb andb]. change (beq (B "-") (B "-")) with true. cbv iota zeta.
      destruct (N.ltb_spec 9223372036854775808 v) as [L|L].
      * replace ((- 2 ^ 63 <=? - Z.of_N v) && (- Z.of_N v <? 2 ^ 63)) with false by lia. reflexivity.
      * replace ((- 2 ^ 63 <=? - Z.of_N v) && (- Z.of_N v <? 2 ^ 63)) with true by lia. reflexivity.
  - exists (B "+"), t. split; [reflexivity|]. split; [cbn; tauto|]. split.
    + intros sg' ds rest E I Ne D. symmetry in E. destruct (Dig ds rest sg' I Ne D _ _ E) as [[_ C]|[-> ->]]; [|auto].
      change (code "+"%char) with 43%N in C. lia.
    + unfold parse_int_e. cbn [Ascii.eqb Bool.eqb orb]. destruct t as [|d t]; [reflexivity|].
      destruct (parse_uint 0 (d :: t)) as [v|e]; [|reflexivity].
      cbn [negb andb]. change (beq (B "+") (B "-")) with false. cbv iota zeta.
      destruct (N.leb_spec 9223372036854775808 v) as [L|L].
      * replace ((- 2 ^ 63 <=? Z.of_N v) && (Z.of_N v <? 2 ^ 63)) with false by lia. reflexivity.
      * replace ((- 2 ^ 63 <=? Z.of_N v) && (Z.of_N v <? 2 ^ 63)) with true by lia. reflexivity.
  - exists [], (c :: t). split; [reflexivity|]. split; [cbn; tauto|]. split.
    + intros sg' ds rest E I Ne D. pose proof E as E'. symmetry in E. destruct (Dig ds rest sg' I Ne D _ _ E) as [[-> _]|[-> _]]; [auto|].
      exfalso. destruct I as [I|[I|[I|[]]]]; [discriminate|injection I as I; congruence|injection I as I; congruence].
    + unfold parse_int_e. apply Ascii.eqb_neq in Hm, Hp. rewrite Hm, Hp. cbn [orb].
      destruct (parse_uint 0 (c :: t)) as [v|e]; [|reflexivity].
      cbn [negb andb]. change (beq [] (B "-")) with false. cbv iota zeta.
      destruct (N.leb_spec 9223372036854775808 v) as [L|L].
      * replace ((- 2 ^ 63 <=? Z.of_N v) && (Z.of_N v <? 2 ^ 63)) with false by lia. reflexivity.
      * replace ((- 2 ^ 63 <=? Z.of_N v) && (Z.of_N v <? 2 ^ 63)) with true by lia. reflexivity.
Qed.
Lemma app_prefix {X} (a b c d : list X) : a ++ b = c ++ d -> (exists u, c = a ++ u) \/ (exists x u, a = c ++ x :: u /\ d = x :: u ++ b).
Proof.
  revert c. induction a as [|x a IH]; intros c E; [left; exists c; reflexivity|].
  destruct c as [|y c]; cbn [app] in E.
  - right. exists x, a. split; [reflexivity|]. symmetry. exact E.
  - injection E as <- E. destruct (IH c E) as [(u & ->)|(z & u & -> & ->)]; [left; exists u; reflexivity|right; exists z, u; auto].
Qed.
Lemma parse_int_e_spec s : match parse_int_e s with
  | inl z => numeral s z
  | inr Range => out_of_range s /\ no_number s
  | inr Syntax => ~ out_of_range s /\ no_number s
  end.
Proof.
  destruct s as [|c t].
  { cbn [parse_int_e]. split.
    - intros (sg & ds & rest & E & _ & Ne & _). symmetry in E. apply app_eq_nil in E as [_ E]. apply app_eq_nil in E as [E _]. contradiction.
    - intros z (ds & Ne & _ & [[E _]|[[E _]|[E _]]] & _); [congruence|discriminate|discriminate]. }
  destruct (sign_body (c :: t)) as (sg & body & Es & Hsg & Uniq & ->); [discriminate|].
  assert (Num : forall z, numeral (c :: t) z -> body <> [] /\ digits body /\ z = (if beq sg (B "-") then - dval 0 body else dval 0 body) /\ - 2 ^ 63 <= z < 2 ^ 63).
  { intros z (ds & Ne & D & Hs & R). destruct Hs as [[E Z]|[[E Z]|[E Z]]].
    - destruct (Uniq [] ds [] ltac:(rewrite app_nil_r; exact E)) as [<- ->]; [left; reflexivity|exact Ne|exact D|].
      rewrite app_nil_r. split; [exact Ne|]. split; [exact D|]. auto.
    - destruct (Uniq (B "+") ds [] ltac:(rewrite app_nil_r; exact E)) as [<- ->]; [right; left; reflexivity|exact Ne|exact D|].
      rewrite app_nil_r. split; [exact Ne|]. split; [exact D|]. auto.
    - destruct (Uniq (B "-") ds [] ltac:(rewrite app_nil_r; exact E)) as [<- ->]; [right; right; left; reflexivity|exact Ne|exact D|].
      rewrite app_nil_r. split; [exact Ne|]. split; [exact D|]. auto. }
  destruct body as [|b body].
  { split.
    - intros (sg' & ds & rest & E & I & Ne & D & _). destruct (Uniq sg' ds rest E I Ne D) as [_ X]. symmetry in X.
      apply app_eq_nil in X as [X _]. contradiction.
    - intros z Hz. destruct (Num z Hz) as [Ne _]. congruence. }
  pose proof (parse_uint_spec (b :: body) 0 ltac:(lia)) as U. change (Z.of_N 0) with 0 in U.
  destruct (parse_uint 0 (b :: body)) as [v|[]].
  - destruct U as (D & V & Hv). cbv zeta. destruct (_ && _) eqn:R.
    + exists (b :: body). split; [discriminate|]. split; [exact D|]. unfold decimal. fold (dval 0 (b :: body)). rewrite <- V. split.
      * rewrite Es. destruct Hsg as [<-|[<-|[<-|[]]]]; [left|right; left|right; right]; split; reflexivity.
      * destruct (beq sg (B "-")); lia.
    + split.
      * exists sg, (b :: body), []. split; [rewrite app_nil_r; exact Es|]. split; [exact Hsg|]. split; [discriminate|]. split; [exact D|].
        right. split; [reflexivity|]. unfold decimal. fold (dval 0 (b :: body)). rewrite <- V. destruct (beq sg (B "-")); lia.
      * intros z Hz. destruct (Num z Hz) as (_ & _ & Z1 & Z2). rewrite <- V in Z1. rewrite <- Z1 in R. lia.
  - destruct U as (ds & x & rest & E & D & Nx & L). split.
    + intros (sg' & ds' & rest' & E' & I & Ne & D' & H). destruct (Uniq sg' ds' rest' E' I Ne D') as [-> X].
      rewrite E in X. destruct H as [H|[-> H]].
      * symmetry in X. apply app_prefix in X as [(u & ->)|(y & u & -> & Y)].
        -- pose proof (dval_mono u (dval 0 ds') ltac:(intros y Hy; apply D; apply in_or_app; right; exact Hy)) as Mo.
           unfold decimal in H. fold (dval 0 ds') in H. rewrite dval_app in L. lia.
        -- injection Y as <- _. apply Nx, D'. apply in_or_app. right; left; reflexivity.
      * rewrite app_nil_r in X. apply Nx, D'. rewrite <- X. apply in_or_app. right; left; reflexivity.
    + intros z Hz. destruct (Num z Hz) as (_ & D' & _). apply Nx, D'. rewrite E. apply in_or_app. right; left; reflexivity.
  - destruct U as (ds & rest & E & Ne & D & L). split.
    + exists sg, ds, rest. split; [rewrite Es, E; reflexivity|]. split; [exact Hsg|]. split; [exact Ne|]. split; [exact D|]. left. exact L.
    + intros z Hz. destruct (Num z Hz) as (_ & D' & Z1 & Z2). rewrite E, dval_app in Z1.
      pose proof (dval_mono rest (dval 0 ds) ltac:(intros y Hy; apply D'; rewrite E; apply in_or_app; right; exact Hy)) as Mo.
      destruct (beq sg (B "-")); lia.
Qed.
Lemma parse_int_e_erase s : parse_int s = match parse_int_e s with inl z => Some z | inr _ => None end.
Proof.
  pose proof (parse_int_e_spec s) as H. destruct (parse_int_e s) as [z|[]].
  - apply parse_int_iff, H.
  - destruct (parse_int s) as [z|] eqn:E; [|reflexivity]. apply parse_int_iff in E. exfalso. exact (proj2 H z E).
  - destruct (parse_int s) as [z|] eqn:E; [|reflexivity]. apply parse_int_iff in E. exfalso. exact (proj2 H z E).
Qed.
