(** The lexer of the table and the lexer of the model agree. *)
From Coq Require Import Lia ZifyBool ZifyNat ZifyN.
From Verif Require Import GoStr PluralModel PluralSpec PluralLexFacts AtnModel AtnSpec AtnFacts.
Local Open Scope Z_scope.

Lemma scan_dead : forall ps best n rs, dead ps = true -> scan LA ps best n rs = best.
Proof.
  intros ps best n [|r t] H; [reflexivity|]. cbn [scan]. rewrite dead_reach by exact H. reflexivity.
Qed.
Lemma scan_stuck : forall ps best n r rs, reach LA ps r = [] -> scan LA ps best n (r :: rs) = best.
Proof. intros ps best n r rs H. cbn [scan]. rewrite H. reflexivity. Qed.
Lemma scan_go : forall ps best n r rs, reach LA ps r <> [] ->
  scan LA ps best n (r :: rs) =
  scan LA (reach LA ps r) (match accepting LA (reach LA ps r) with
                           | Some (ty, acts) => Some (ty, acts, S n) | None => best end) (S n) rs.
Proof.
  intros ps best n r rs H. cbn [scan]. destruct (reach LA ps r) eqn:E; [congruence|reflexivity].
Qed.
Lemma nilb_true : forall (T : Type) (l : list T), nilb l = true -> l = [].
Proof. intros T [|x l] H; [reflexivity|discriminate]. Qed.
Lemma nilb_false : forall (T : Type) (l : list T), nilb l = false -> l <> [].
Proof. intros T [|x l] H; [discriminate|discriminate]. Qed.
Lemma c1 : forall c, (code c < 128)%N -> check1 c = true.
Proof. intros c H. exact (proj1 (forallb_forall _ _) check1_all c (ascii_in c H)). Qed.
Lemma c2 : forall c, (code c < 128)%N -> check2 c = true.
Proof. intros c H. exact (proj1 (forallb_forall _ _) check2_all c (ascii_in c H)). Qed.
Lemma digit_small : forall c, is_digit c = true -> (code c < 128)%N.
Proof. intros c H. apply is_digit_range in H. lia. Qed.
Lemma ws_small : forall c, is_ws c = true -> (code c < 128)%N.
Proof.
  intros c H. unfold is_ws in H. apply orb_true_iff in H as [H | H];
    apply Ascii.eqb_eq in H; subst c; vm_compute; reflexivity.
Qed.
Lemma acc_int : accepting LA s_int = Some (28, []). Proof. vm_compute. reflexivity. Qed.
Lemma acc_ws : accepting LA s_ws = Some (29, [0]). Proof. vm_compute. reflexivity. Qed.
Lemma s_int_ne : s_int <> []. Proof. discriminate. Qed.
Lemma s_ws_ne : s_ws <> []. Proof. discriminate. Qed.

Lemma after_eq : forall c, reach LA start (zc c) = after c. Proof. intros c. unfold after. reflexivity. Qed.
Local Opaque LA start after s_int s_ws reach accepting.
(** a loop of the table: reads a maximal stretch of the characters of a class *)
Lemma scan_loop : forall (P : ascii -> bool) (ps : list place) ty acts,
  ps <> [] -> accepting LA ps = Some (ty, acts) ->
  (forall c, (code c < 128)%N -> P c = true -> reach LA ps (zc c) = ps) ->
  (forall c, (code c < 128)%N -> P c = false -> reach LA ps (zc c) = []) ->
  (forall c, P c = true -> (code c < 128)%N) ->
  forall b t n,
  (forall c, In c b -> P c = true) ->
  (match t with d :: _ => P d = false | [] => True end) ->
  scan LA ps (Some (ty, acts, n)) n (map zc b ++ runes t) = Some (ty, acts, (n + length b)%nat).
Proof.
  intros P ps ty acts Hne Hacc Hyes Hno Hsm b t.
  induction b as [|c b IH]; intros n Hb Ht.
  - cbn [map app length]. rewrite Nat.add_0_r. destruct t as [|d t]; [reflexivity|].
    destruct (N.lt_ge_cases (code d) 128) as [L | L].
    + rewrite runes_small by exact L. apply scan_stuck. apply Hno; assumption.
    + destruct (runes_big d t L) as (r & l & -> & R). apply scan_stuck. apply big_reach. exact R.
  - cbn [map app length]. assert (Pc : P c = true) by (apply Hb; left; reflexivity).
    pose proof (Hyes c (Hsm c Pc) Pc) as R.
    rewrite scan_go by (rewrite R; exact Hne). rewrite R, Hacc.
    rewrite IH; [f_equal; f_equal; lia| |exact Ht]. intros d Id. apply Hb. right. exact Id.
Qed.
Lemma runes_app : forall b t, (forall c, In c b -> (code c < 128)%N) ->
  runes (b ++ t) = map zc b ++ runes t.
Proof.
  induction b as [|c b IH]; intros t H; [reflexivity|].
  cbn [app map]. rewrite runes_small by (apply H; left; reflexivity). f_equal.
  apply IH. intros d Id. apply H. right. exact Id.
Qed.

(** the longest stretch of a class *)
Fixpoint stretch (P : ascii -> bool) (s : bytes) : bytes * bytes :=
  match s with
  | [] => ([], [])
  | c :: t => if P c then let (a, b) := stretch P t in (c :: a, b) else ([], s)
  end.
Lemma stretch_spec : forall P s, let (a, b) := stretch P s in
  s = a ++ b /\ (forall c, In c a -> P c = true) /\
  match b with d :: _ => P d = false | [] => True end.
Proof.
  intros P. induction s as [|c t IH]; cbn [stretch]; [repeat split; intros ? []|].
  destruct (P c) eqn:E.
  - destruct (stretch P t) as [a b]. destruct IH as (-> & IH1 & IH2). repeat split; [|exact IH2].
    intros d [<- | Id]; [exact E|apply IH1, Id].
  - repeat split; [intros ? []|exact E].
Qed.

Definition result (ts : list tok) : option (list (Z * list Z)) :=
  if existsb is_err ts then None else Some (map token ts).
Lemma result_cons : forall t ts, is_err t = false ->
  result (t :: ts) = match result ts with Some l => Some (token t :: l) | None => None end.
Proof.
  intros t ts H. unfold result. cbn [existsb map]. rewrite H. cbn [orb].
  destruct (existsb is_err ts); reflexivity.
Qed.
Lemma result_err : forall t ts, is_err t = true -> result (t :: ts) = None.
Proof. intros t ts H. unfold result. cbn [existsb]. rewrite H. reflexivity. Qed.

Lemma one_big : forall c, (128 <= code c)%N -> one c = KErr.
Proof.
  intros c H. unfold one.
  repeat match goal with
  | |- context [Ascii.eqb c ?x] =>
      let E := fresh in destruct (Ascii.eqb c x) eqn:E;
      [apply Ascii.eqb_eq in E; subst c; exfalso; vm_compute in H; congruence|]
  end. reflexivity.
Qed.
Lemma two_big : forall c d, (128 <= code c)%N \/ (128 <= code d)%N -> two c d = None.
Proof.
  intros c d H. unfold two. cbv zeta.
  repeat match goal with
  | |- context [Ascii.eqb c ?x && Ascii.eqb d ?y] =>
      let E := fresh in destruct (Ascii.eqb c x && Ascii.eqb d y) eqn:E;
      [apply andb_true_iff in E as [E ?]; apply Ascii.eqb_eq in E; subst c;
       match goal with X : Ascii.eqb d _ = true |- _ => apply Ascii.eqb_eq in X; subst d end;
       exfalso; destruct H as [H | H]; vm_compute in H; congruence|]
  end. reflexivity.
Qed.
Lemma one_text : forall c, is_err (one c) = false -> map zc (text (one c)) = [zc c].
Proof.
  intros c H. unfold one in *.
  repeat match goal with
  | |- context [Ascii.eqb c ?x] =>
      let E := fresh in destruct (Ascii.eqb c x) eqn:E;
      [apply Ascii.eqb_eq in E; subst c; reflexivity|]
  end. discriminate.
Qed.
Lemma two_text : forall c d k, two c d = Some k -> text k = [c; d].
Proof.
  intros c d k H. unfold two in H. cbv zeta in H.
  repeat match type of H with
  | context [Ascii.eqb c ?x && Ascii.eqb d ?y] =>
      let E := fresh in destruct (Ascii.eqb c x && Ascii.eqb d y) eqn:E;
      [apply andb_true_iff in E as [E ?]; apply Ascii.eqb_eq in E; subst c;
       match goal with X : Ascii.eqb d _ = true |- _ => apply Ascii.eqb_eq in X; subst d end;
       injection H as <-; reflexivity|]
  end. discriminate.
Qed.
Lemma big_not : forall c, (128 <= code c)%N -> is_ws c = false /\ is_digit c = false.
Proof.
  intros c H. split.
  - destruct (is_ws c) eqn:E; [apply ws_small in E; lia|reflexivity].
  - destruct (is_digit c) eqn:E; [apply digit_small in E; lia|reflexivity].
Qed.

Lemma skipn_pre : forall (a b : list Z), skipn (length a) (a ++ b) = b.
Proof. intros a b. rewrite skipn_app, skipn_all, Nat.sub_diag. reflexivity. Qed.
Lemma firstn_pre : forall (a b : list Z), firstn (length a) (a ++ b) = a.
Proof. intros a b. rewrite firstn_app, firstn_all, Nat.sub_diag, firstn_O, app_nil_r. reflexivity. Qed.

(** one turn of the lexer *)
Lemma turn : forall f rs ty acts (a b : list Z), a <> [] -> rs = a ++ b ->
  scan LA start None 0 rs = Some (ty, acts, length a) ->
  tokens_of LA (S f) rs =
  match tokens_of LA f b with
  | None => None
  | Some l => if skips LA acts then Some l else Some ((ty, a) :: l)
  end.
Proof.
  intros f rs ty acts a b Ha -> H. destruct (a ++ b) as [|r t] eqn:E.
  - destruct a; [congruence|discriminate].
  - cbn [tokens_of]. rewrite start_ok, H, <- E, skipn_pre, firstn_pre. reflexivity.
Qed.
Lemma turn_fail : forall f r t, scan LA start None 0 (r :: t) = None ->
  tokens_of LA (S f) (r :: t) = None.
Proof. intros f r t H. cbn [tokens_of]. rewrite start_ok, H. reflexivity. Qed.
Lemma no_skip : skips LA [] = false. Proof. reflexivity. Qed.
Lemma ws_skip : skips LA [0] = true. Proof. vm_compute. reflexivity. Qed.

Lemma lex_one : forall c t, is_ws c = false -> is_digit c = false ->
  (match t with d :: _ => two c d = None | [] => True end) ->
  lex (c :: t) = one c :: lex t.
Proof.
  intros c t W D H. cbn [lex]. rewrite W, D. destruct t as [|d t]; [reflexivity|]. rewrite H. reflexivity.
Qed.
Lemma lex_two : forall c d t k, is_ws c = false -> is_digit c = false ->
  two c d = Some k -> lex (c :: d :: t) = k :: lex t.
Proof. intros c d t k W D H. cbn [lex]. rewrite W, D, H. reflexivity. Qed.

Lemma acc_is_eq : forall ps t, acc_is ps t = true -> accepting LA ps = Some (token_type t, []).
Proof.
  intros ps t H. unfold acc_is in H. destruct (accepting LA ps) as [[ty [|a l]]|]; try discriminate.
  apply Z.eqb_eq in H. subst. reflexivity.
Qed.
Lemma no_acc_eq : forall ps, no_acc ps = true -> accepting LA ps = None.
Proof. intros ps H. unfold no_acc in H. destruct (accepting LA ps); [discriminate|reflexivity]. Qed.

(** a character that is a token by itself, or none, when what follows does not
    extend it *)
Lemma scan_single : forall c rs, (code c < 128)%N -> is_ws c = false -> is_digit c = false ->
  (forall r t, rs = r :: t -> reach LA (after c) r = []) ->
  scan LA start None 0 (zc c :: rs) =
  if is_err (one c) then None else Some (token_type (one c), [], 1%nat).
Proof.
  intros c rs L W D H. pose proof (c1 c L) as K. unfold check1 in K. rewrite W, D in K.
  apply andb_true_iff in K as [K _].
  destruct (nilb (after c)) eqn:N.
  - apply nilb_true in N. rewrite scan_stuck by (rewrite after_eq; exact N).
    destruct (is_err (one c)); [reflexivity|]. cbn [negb] in K. rewrite andb_false_r in K. discriminate.
  - apply nilb_false in N. rewrite scan_go by (rewrite after_eq; exact N). rewrite after_eq.
    assert (X : forall best, scan LA (after c) best 1 rs = best).
    { intros best. destruct rs as [|r t]; [reflexivity|]. apply scan_stuck. exact (H r t eq_refl). }
    rewrite X. destruct (is_err (one c)).
    + rewrite (no_acc_eq _ K). reflexivity.
    + apply andb_true_iff in K as [K _]. rewrite (acc_is_eq _ _ K). reflexivity.
Qed.
Lemma scan_pair : forall c d k rs, (code c < 128)%N -> (code d < 128)%N ->
  is_ws c = false -> is_digit c = false -> two c d = Some k ->
  scan LA start None 0 (zc c :: zc d :: rs) = Some (token_type k, [], 2%nat) /\ is_err k = false.
Proof.
  intros c d k rs L L2 W D T. pose proof (c1 c L) as K. unfold check1 in K. rewrite W, D in K.
  apply andb_true_iff in K as [_ K].
  pose proof (proj1 (forallb_forall _ _) K d (ascii_in d L2)) as K2. cbv beta in K2. rewrite T in K2.
  cbv zeta in K2. apply andb_true_iff in K2 as [K2 Kd]. apply andb_true_iff in K2 as [K2 Ka].
  apply andb_true_iff in K2 as [K2 Kp]. apply andb_true_iff in K2 as [Ke Kc].
  apply negb_true_iff in Ke, Kc, Kp. apply nilb_false in Kc, Kp.
  split; [|exact Ke]. rewrite scan_go by (rewrite after_eq; exact Kc). rewrite after_eq. rewrite scan_go by exact Kp.
  rewrite scan_dead by exact Kd. rewrite (acc_is_eq _ _ Ka). reflexivity.
Qed.
Lemma after_none : forall c d, (code c < 128)%N -> (code d < 128)%N ->
  is_ws c = false -> is_digit c = false -> two c d = None -> reach LA (after c) (zc d) = [].
Proof.
  intros c d L L2 W D T. pose proof (c1 c L) as K. unfold check1 in K. rewrite W, D in K.
  apply andb_true_iff in K as [_ K].
  pose proof (proj1 (forallb_forall _ _) K d (ascii_in d L2)) as K2. cbv beta in K2. rewrite T in K2.
  exact (nilb_true _ _ K2).
Qed.

Lemma digit_steps : forall c, (code c < 128)%N ->
  (is_digit c = true -> reach LA s_int (zc c) = s_int) /\
  (is_digit c = false -> reach LA s_int (zc c) = []) /\
  (is_ws c = true -> reach LA s_ws (zc c) = s_ws) /\
  (is_ws c = false -> reach LA s_ws (zc c) = []).
Proof.
  intros c L. pose proof (c2 c L) as K. unfold check2 in K. apply andb_true_iff in K as [K1 K2].
  repeat split; intros H; rewrite H in *.
  - apply places_eqb_eq, K1.
  - apply nilb_true, K1.
  - apply places_eqb_eq, K2.
  - apply nilb_true, K2.
Qed.
Lemma after_class : forall c, (code c < 128)%N ->
  (is_ws c = true -> after c = s_ws) /\ (is_ws c = false -> is_digit c = true -> after c = s_int).
Proof.
  intros c L. pose proof (c1 c L) as K. unfold check1 in K. split.
  - intros H. rewrite H in K. apply places_eqb_eq, K.
  - intros H1 H2. rewrite H1, H2 in K. apply places_eqb_eq, K.
Qed.

Lemma lexers_agree : forall m s f, (length s <= m)%nat -> (length (runes s) <= f)%nat ->
  tokens_of LA f (runes s) = result (lex s).
Proof.
  induction m as [|m IH]; intros s f Hm Hf.
  { destruct s; [|cbn [length] in Hm; lia]. destruct f; reflexivity. }
  destruct s as [|c t]; [destruct f; reflexivity|]. cbn [length] in Hm.
  destruct (N.lt_ge_cases (code c) 128) as [L | L].
  2: { destruct (runes_big c t L) as (r & l & E & R). rewrite E in *. cbn [length] in Hf.
       destruct f as [|f]; [lia|]. rewrite turn_fail by (apply scan_stuck, big_reach, R).
       destruct (big_not c L) as [W D]. rewrite lex_one; [|exact W|exact D|].
       - rewrite result_err; [reflexivity|]. rewrite one_big by exact L. reflexivity.
       - destruct t; [exact I|]. apply two_big. left. exact L. }
  destruct f as [|f]; [rewrite runes_small in Hf by exact L; cbn [length] in Hf; lia|].
  destruct (is_ws c) eqn:W; [|destruct (is_digit c) eqn:D].
  - (* blanks *)
    pose proof (stretch_spec is_ws t) as Sp. destruct (stretch is_ws t) as [b t']. destruct Sp as (-> & Hb & Ht).
    assert (E : runes (c :: b ++ t') = map zc (c :: b) ++ runes t').
    { rewrite <- runes_app; [reflexivity|]. intros d [<- | Id]; [exact L|apply ws_small, Hb, Id]. }
    assert (Sc : scan LA start None 0 (runes (c :: b ++ t')) = Some (29, [0], length (map zc (c :: b)))).
    { rewrite E. cbn [map app]. pose proof (proj1 (after_class c L) W) as A.
      rewrite scan_go by (rewrite after_eq, A; exact s_ws_ne). rewrite after_eq. rewrite A, acc_ws.
      rewrite (scan_loop is_ws s_ws 29 [0] s_ws_ne acc_ws).
      - cbn [length]. rewrite map_length. reflexivity.
      - intros d Ld Pd. exact (proj1 (proj2 (proj2 (digit_steps d Ld))) Pd).
      - intros d Ld Pd. exact (proj2 (proj2 (proj2 (digit_steps d Ld))) Pd).
      - exact ws_small.
      - exact Hb.
      - exact Ht. }
    rewrite (turn f _ _ _ (map zc (c :: b)) (runes t') ltac:(discriminate) E Sc), ws_skip.
    rewrite app_length in Hm. rewrite IH; [|lia|].
    + change (c :: b ++ t') with ((c :: b) ++ t'). rewrite lex_blank.
      * destruct (result (lex t')); reflexivity.
      * intros d Id. assert (X : is_ws d = true) by (destruct Id as [<- | Id]; [exact W|apply Hb, Id]).
        unfold is_ws in X. apply orb_true_iff in X as [X | X]; apply Ascii.eqb_eq in X; subst d;
          [left|right]; reflexivity.
    + rewrite E, app_length, map_length in Hf. cbn [length] in Hf. lia.
  - (* a number *)
    pose proof (stretch_spec is_digit t) as Sp. destruct (stretch is_digit t) as [b t']. destruct Sp as (-> & Hb & Ht).
    assert (E : runes (c :: b ++ t') = map zc (c :: b) ++ runes t').
    { rewrite <- runes_app; [reflexivity|]. intros d [<- | Id]; [exact L|apply digit_small, Hb, Id]. }
    assert (Sc : scan LA start None 0 (runes (c :: b ++ t')) = Some (28, [], length (map zc (c :: b)))).
    { rewrite E. cbn [map app]. pose proof (proj2 (after_class c L) W D) as A.
      rewrite scan_go by (rewrite after_eq, A; exact s_int_ne). rewrite after_eq. rewrite A, acc_int.
      rewrite (scan_loop is_digit s_int 28 [] s_int_ne acc_int).
      - cbn [length]. rewrite map_length. reflexivity.
      - intros d Ld Pd. exact (proj1 (digit_steps d Ld) Pd).
      - intros d Ld Pd. exact (proj1 (proj2 (digit_steps d Ld)) Pd).
      - exact digit_small.
      - exact Hb.
      - exact Ht. }
    rewrite (turn f _ _ _ (map zc (c :: b)) (runes t') ltac:(discriminate) E Sc), no_skip.
    rewrite app_length in Hm. rewrite IH; [|lia|].
    + change (c :: b ++ t') with ((c :: b) ++ t'). rewrite lex_digits.
      * rewrite result_cons by reflexivity. reflexivity.
      * discriminate.
      * intros d [<- | Id]; [exact D|apply Hb, Id].
      * exact Ht.
    + rewrite E, app_length, map_length in Hf. cbn [length] in Hf. lia.
  - (* operators *)
    assert (Single : (forall r l, runes t = r :: l -> reach LA (after c) r = []) ->
      (match t with d :: _ => two c d = None | [] => True end) ->
      tokens_of LA (S f) (runes (c :: t)) = result (lex (c :: t))).
    { intros H1 H2. rewrite runes_small in Hf by exact L. cbn [length] in Hf.
      pose proof (scan_single c (runes t) L W D H1) as Sc. rewrite lex_one by assumption.
      rewrite runes_small by exact L. destruct (is_err (one c)) eqn:Er.
      - rewrite turn_fail by exact Sc. rewrite result_err by exact Er. reflexivity.
      - rewrite (turn f (zc c :: runes t) _ _ [zc c] (runes t) ltac:(discriminate) eq_refl Sc), no_skip.
        rewrite IH by lia. rewrite result_cons by exact Er. unfold token.
        rewrite one_text by exact Er. reflexivity. }
    destruct t as [|d t].
    + apply Single; [intros r l E; discriminate E|exact I].
    + destruct (N.lt_ge_cases (code d) 128) as [L2 | L2].
      * destruct (two c d) as [k|] eqn:T.
        -- destruct (scan_pair c d k (runes t) L L2 W D T) as [Sc Er].
           assert (E : runes (c :: d :: t) = [zc c; zc d] ++ runes t)
             by (rewrite runes_small by exact L; rewrite runes_small by exact L2; reflexivity).
           rewrite E in *. cbn [app] in *.
           rewrite (turn f (zc c :: zc d :: runes t) _ _ [zc c; zc d] (runes t) ltac:(discriminate) eq_refl Sc), no_skip.
           cbn [length] in Hf, Hm. rewrite IH by lia.
           rewrite (lex_two c d t k) by assumption. rewrite result_cons by exact Er.
           unfold token. rewrite (two_text c d k T). reflexivity.
        -- apply Single; [|reflexivity]. intros r l E. rewrite runes_small in E by exact L2.
           injection E as <- _. apply after_none; assumption.
      * apply Single; [|apply two_big; right; exact L2].
        intros r l E. destruct (runes_big d t L2) as (r' & l' & E' & R). rewrite E' in E.
        injection E as <- _. apply big_reach, R.
Qed.

Lemma table_lex_is : forall s, table_lex s = result (lex s).
Proof.
  intros s. unfold table_lex. rewrite LA_ok. apply (lexers_agree (length s)); apply le_n.
Qed.
Lemma no_err : forall ts, existsb is_err ts = false <-> ~ In KErr ts.
Proof.
  induction ts as [|t ts IH]; cbn [existsb In]; [tauto|].
  rewrite orb_false_iff, IH. destruct t; cbn [is_err]; split;
    intros H; try tauto; (split; [first [reflexivity|exfalso; tauto]|tauto]) ||
    (destruct H as [H1 H2]; intros [X | X]; [discriminate|tauto]).
Qed.
Lemma table_lex_layout : forall s out,
  table_lex s = Some out <-> exists ts, layout ts s /\ out = map token ts.
Proof.
  intros s out. rewrite table_lex_is. unfold result. split.
  - destruct (existsb is_err (lex s)) eqn:E; [discriminate|]. intros H. injection H as <-.
    exists (lex s). split; [|reflexivity]. apply lex_iff_layout. split; [reflexivity|].
    apply no_err, E.
  - intros (ts & Hl & ->). apply lex_iff_layout in Hl as [<- Hn].
    apply no_err in Hn. rewrite Hn. reflexivity.
Qed.
