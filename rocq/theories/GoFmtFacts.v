From Verif Require Import GoStr GoStrFacts GoFmt FmtSpec.
From Coq Require Import Lia ZifyBool ZifyNat ZifyN.
Ltac Zify.zify_post_hook ::= Z.div_mod_to_equations.
Local Open Scope Z_scope.

(** ** Numbers *)
Definition hd_not (p : ascii -> bool) (t : bytes) : Prop := forall c x, t = c :: x -> p c = false.
Lemma digits_val_mono s acc v : digits_val acc s = Some v -> (acc <= v)%N.
Proof.
  revert acc. induction s as [|c s IH]; intros acc; cbn; [intros [= ->]; lia|].
  destruct (is_digit c); [|discriminate]. intros H. apply IH in H. lia.
Qed.
Lemma parsenum_digits ds : forall acc v b t, digits_val acc ds = Some v -> small (Z.of_N v) -> hd_not is_digit t ->
  parsenum (Z.of_N acc) b (ds ++ t) = (Z.of_N v, b || match ds with [] => false | _ => true end, t).
Proof.
  unfold small. induction ds as [|c ds IH]; intros acc v b t E S H; cbn [app].
  - cbn in E. injection E as <-. rewrite orb_false_r. destruct t as [|c t]; [reflexivity|]. cbn [parsenum].
    rewrite (H c t eq_refl). reflexivity.
  - cbn in E |- *. destruct (is_digit c) eqn:D; [|discriminate].
    pose proof (digits_val_mono _ _ _ E) as M.
    assert (T : too_large (Z.of_N acc) = false) by (unfold too_large; lia). rewrite T.
    assert (D' : (48 <= code c <= 57)%N) by (unfold is_digit, in_range in D; lia).
    replace (Z.of_N acc * 10 + (Z.of_N (code c) - 48)) with (Z.of_N (acc * 10 + (code c - 48))) by lia.
    rewrite (IH _ v true t E S H). rewrite orb_true_r. reflexivity.
Qed.
Lemma dec_pos_val p : digits_val 0 (dec_Z (Zpos p)) = Some (Npos p).
Proof. apply dec_val. Qed.
Lemma dec_head_fuel f n : (0 < n)%N -> (n < 2 ^ N.of_nat f)%N -> forall c t, dec_fuel f n = c :: t -> (49 <= code c <= 57)%N.
Proof.
  revert n. induction f as [|f IH]; intros n H0 H c t; cbn [dec_fuel]; [discriminate|].
  destruct (N.ltb_spec n 10) as [L|L].
  - intros [= <- <-]. rewrite digit_code by exact L. lia.
  - assert (Hn : (n / 10 < 2 ^ N.of_nat f)%N).
    { rewrite Nat2N.inj_succ, N.pow_succ_r' in H. lia. }
    destruct (dec_fuel f (n / 10)) as [|c' t'] eqn:E.
    + destruct f as [|f]; [cbn in Hn; lia|]. destruct (dec_fuel_val (S f) (n / 10) Hn) as (_ & _ & N0); [discriminate|]. contradiction.
    + cbn. intros [= <- _]. refine (IH (n / 10)%N _ Hn _ _ E). lia.
Qed.
Lemma dec_head p c t : dec_Z (Zpos p) = c :: t -> (49 <= code c <= 57)%N.
Proof.
  cbn [dec_Z]. unfold dec. apply dec_head_fuel; [lia|].
  rewrite Nat2N.inj_succ, N2Nat.id. apply N.log2_lt_pow2; lia.
Qed.
Lemma dec_pos_cons p : exists c t, dec_Z (Zpos p) = c :: t /\ (49 <= code c <= 57)%N.
Proof.
  destruct (dec_Z (Zpos p)) as [|c t] eqn:E; [destruct (dec_nonempty (Npos p) E)|].
  exists c, t. split; [reflexivity|]. eapply dec_head, E.
Qed.
Lemma dec_no_bracket p : ~ In "]"%char (dec_Z (Zpos p)).
Proof. intros I. apply (dec_digits (Npos p)) in I. discriminate. Qed.

(** ** Classes of characters *)
Lemma eqb_code (a b : ascii) : code a <> code b -> Ascii.eqb a b = false.
Proof. intros H. destruct (Ascii.eqb_spec a b) as [->|]; congruence. Qed.
Record plainchar (c : ascii) : Prop := {
  pc_flag : is_flag c = false; pc_digit : is_digit c = false; pc_star : Ascii.eqb c "*" = false;
  pc_dot : Ascii.eqb c "." = false; pc_br : Ascii.eqb c "[" = false }.
Lemma high_plain c : (128 <= code c)%N -> plainchar c.
Proof.
  intros H. assert (E : forall d : ascii, (code d < 128)%N -> Ascii.eqb c d = false) by (intros d Hd; apply eqb_code; lia).
  split; try (apply E; vm_compute; reflexivity).
  - unfold is_flag. rewrite !E by (vm_compute; reflexivity). reflexivity.
  - unfold is_digit, in_range. lia.
Qed.
Lemma verb_plain v : verb_ok v -> exists c t, v = c :: t /\ plainchar c.
Proof.
  intros [(c & -> & H & N)|(r & H & V & ->)].
  - exists c, []. split; [reflexivity|].
    destruct c as [[] [] [] [] [] [] [] []]; try (split; reflexivity); try (vm_compute in H; discriminate H);
      exfalso; apply N; vm_compute; tauto.
  - destruct (encode_rune r) as [|c t] eqn:E; [destruct (encode_rune_nonempty r E)|].
    exists c, t. split; [reflexivity|]. apply high_plain. apply (encode_rune_high r c); [exact H|]. rewrite E. left. reflexivity.
Qed.
Lemma verb_at_app v rest : verb_ok v -> verb_at (v ++ rest) = Some (verb_rune v, rest).
Proof.
  intros [(c & -> & H & _)|(r & H & V & ->)].
  - cbn. unfold verb_rune. rewrite decode_rune_ascii by exact H. destruct (N.ltb_spec (code c) 128); [reflexivity|lia].
  - unfold verb_rune. pose proof (encode_decode r [] V) as E0. rewrite app_nil_r in E0. rewrite E0. cbn [fst].
    pose proof (encode_decode r rest V) as E1.
    destruct (encode_rune r) as [|c t] eqn:E; [destruct (encode_rune_nonempty r E)|].
    assert (Hc : (128 <= code c)%N) by (apply (encode_rune_high r c H); rewrite E; left; reflexivity).
    cbn [app verb_at]. destruct (N.ltb_spec (code c) 128); [lia|].
    change (c :: t ++ rest) with ((c :: t) ++ rest). rewrite E1. rewrite skipn_app, skipn_all, Nat.sub_diag. reflexivity.
Qed.
Lemma span_app p a t : forallb p a = true -> hd_not p t -> span p (a ++ t) = (a, t).
Proof.
  induction a as [|c a IH]; cbn; intros F H.
  - destruct t as [|c t]; [reflexivity|]. cbn. rewrite (H c t eq_refl). reflexivity.
  - apply andb_prop in F as [-> F]. rewrite (IH F H). reflexivity.
Qed.

(** ** One directive *)
Section Dir.
Context {A : Type}.
Variable as_int : arg A -> option Z.
Variable args : list (arg A).
Let n := length args.
Definition set_ix (ix : option positive) (x : st) : st :=
  match ix with
  | None => x
  | Some p => if Nat.ltb (Pos.to_nat p - 1) n then {| s_arg := Pos.to_nat p - 1; s_good := s_good x; s_reord := true |}
              else {| s_arg := s_arg x; s_good := false; s_reord := true |}
  end.
Definition given (ix : option positive) : bool := match ix with Some _ => true | None => false end.
Lemma arg_number_ix ix t x : small_ix ix -> hd_not (fun c => Ascii.eqb c "[") t ->
  arg_number n (ix_text ix ++ t) x = (set_ix ix x, t, given ix).
Proof.
  intros S H. destruct ix as [p|]; cbn [ix_text set_ix given].
  - rewrite <- !app_assoc. change (B "[" ++ dec_Z (Z.pos p) ++ B "]" ++ t) with ("["%char :: (dec_Z (Zpos p) ++ "]"%char :: t)).
    cbn [arg_number]. rewrite Ascii.eqb_refl. unfold parse_arg_number.
    destruct (Nat.ltb_spec (length ("["%char :: dec_Z (Zpos p) ++ "]"%char :: t)) 3) as [L|_].
    { destruct (dec_pos_cons p) as (c & u & E & _). rewrite E in L. cbn in L. rewrite app_length in L. cbn in L. lia. }
    cbn [tl]. rewrite index_byte_app by apply dec_no_bracket.
    rewrite firstn_app, firstn_all, Nat.sub_diag. cbn [firstn]. rewrite app_nil_r.
    pose proof (parsenum_digits (dec_Z (Zpos p)) 0 (Npos p) false [] (dec_pos_val p) (S p eq_refl)) as P.
    rewrite app_nil_r in P. change (Z.of_N 0) with 0 in P. rewrite P by (intros ? ? E; discriminate E).
    destruct (dec_pos_cons p) as (c & u & E & _).
    replace (false || match dec_Z (Z.pos p) with [] => false | _ => true end) with true by (rewrite E; reflexivity).
    replace (skipn (Datatypes.S (length (dec_Z (Z.pos p)))) (dec_Z (Z.pos p) ++ "]"%char :: t)) with t.
    2:{ rewrite skipn_app, skipn_all2 by lia. replace (_ - _)%nat with 1%nat by lia. reflexivity. }
    cbn [andb]. destruct (Z.leb_spec 0 (Z.of_N (Npos p) - 1)) as [_|L]; [|lia]. cbn [andb].
    destruct (Z.ltb_spec (Z.of_N (Npos p) - 1) (Z.of_nat n)) as [L|L]; destruct (Nat.ltb_spec (Pos.to_nat p - 1) n) as [L'|L']; try lia.
    + do 3 f_equal. lia.
    + reflexivity.
  - cbn. destruct t as [|c t]; [reflexivity|]. cbn [arg_number]. rewrite (H c t eq_refl). reflexivity.
Qed.
Lemma parsenum_none t : hd_not is_digit t -> parsenum 0 false t = (0, false, t).
Proof. intros H. destruct t as [|c t]; [reflexivity|]. cbn. rewrite (H c t eq_refl). reflexivity. Qed.

Definition star_wid (x : st) : option Z * st * list (chunk A) :=
  let '(z, isint, k) := int_from_arg as_int args (s_arg x) in
  (if isint : bool then Some z else None, set_arg x k, if isint : bool then [] else [CBadWidth]).
Definition star_prec (x : st) (pre : list (chunk A)) : option Z * st * list (chunk A) :=
  let '(z, isint, k) := int_from_arg as_int args (s_arg x) in
  let present := isint && negb (z <? 0) in
  (if present then Some z else None, set_arg x k, if present then pre else pre ++ [CBadPrec]).
Definition run_wid (w : width) (x : st) : option Z * st * list (chunk A) :=
  match w with
  | WNone => (None, x, [])
  | WNum m => (Some (Zpos m), x, [])
  | WStar ix => star_wid (set_ix ix x)
  end.
Definition run_prec (p : precision) (x : st) (pre : list (chunk A)) : option Z * st * list (chunk A) :=
  match p with
  | PNone => (None, x, pre)
  | PDot => (Some 0, x, pre)
  | PNum ds => (Some (match digits_val 0 ds with Some v => Z.of_N v | None => 0 end), x, pre)
  | PStar ix => star_prec (set_ix ix x) pre
  end.
Definition run_verb (fl : bytes) (w p : option Z) (v : bytes) (x : st) (pre : list (chunk A)) : list (chunk A) * st :=
  let verb := verb_rune v in
  if (verb =? 37)%N then (pre ++ [CPercent], x)
  else if negb (s_good x) then (pre ++ [CBadIndex verb], x)
  else match nth_error args (s_arg x) with
       | None => (pre ++ [CMissing verb], x)
       | Some a => (pre ++ [CArg {| sp_flags := fl; sp_wid := w; sp_prec := p; sp_verb := verb |} a], set_arg x (S (s_arg x)))
       end.
Definition run_dir (d : dir) (x : st) : list (chunk A) * st :=
  let x := {| s_arg := s_arg x; s_good := true; s_reord := s_reord x |} in
  let '(w, x, o) := run_wid (d_wid d) x in
  let '(p, x, o) := run_prec (d_prec d) x o in
  run_verb (d_flags d) w p (d_verb d) (set_ix (d_ix d) x) o.

Lemma finish_verb fl w p x v rest pre : verb_ok v ->
  finish args fl w p x (v ++ rest) pre = (run_verb fl w p v x pre, rest).
Proof.
  intros V. unfold finish, run_verb. rewrite (verb_at_app v rest V).
  destruct (_ =? 37)%N; [reflexivity|]. destruct (negb _); [reflexivity|]. destruct (nth_error _ _); reflexivity.
Qed.
Lemma hd_verb_br v rest : verb_ok v -> hd_not (fun c => Ascii.eqb c "[") (v ++ rest).
Proof. intros V c x E. destruct (verb_plain v V) as (c' & t & -> & P). injection E as <- _. apply P. Qed.
Lemma hd_verb_digit v rest : verb_ok v -> hd_not is_digit (v ++ rest).
Proof. intros V c x E. destruct (verb_plain v V) as (c' & t & -> & P). injection E as <- _. apply P. Qed.
Lemma hd_ixverb_digit ix v rest : verb_ok v -> hd_not is_digit (ix_text ix ++ v ++ rest).
Proof.
  intros V c x E. destruct ix as [p|]; [injection E as <- _; reflexivity|]. exact (hd_verb_digit v rest V c x E).
Qed.
Lemma finish_after fl w p x ix v rest pre : verb_ok v -> small_ix ix ->
  (let '(x', s', _) := arg_number n (ix_text ix ++ v ++ rest) x in finish args fl w p x' s' pre)
  = (run_verb fl w p v (set_ix ix x) pre, rest).
Proof.
  intros V S. rewrite (arg_number_ix ix _ x S (hd_verb_br v rest V)). apply finish_verb, V.
Qed.
Lemma ix_cons ix v rest : verb_ok v -> exists c t, ix_text ix ++ v ++ rest = c :: t /\ Ascii.eqb c "." = false /\ Ascii.eqb c "*" = false
  /\ is_digit c = false.
Proof.
  intros V. destruct ix as [p|].
  - eexists "["%char, _. split; [reflexivity|]. repeat split.
  - destruct (verb_plain v V) as (c & t & -> & P). exists c, (t ++ rest). split; [reflexivity|]. repeat split; apply P.
Qed.
Definition prec_ok (p : precision) : Prop :=
  match p with PNum ds => exists v, digits_val 0 ds = Some v /\ ds <> [] /\ small (Z.of_N v) | PStar ix => small_ix ix | _ => True end.
Lemma prec_run fl w x p ix v rest pre : verb_ok v -> small_ix ix -> prec_ok p ->
  with_prec as_int args fl w x false (prec_text p ++ ix_text ix ++ v ++ rest) pre
  = (let '(q, x', o) := run_prec p x pre in run_verb fl w q v (set_ix ix x') o, rest).
Proof.
  intros V S P. destruct p as [| |ds|ix'].
  - cbn [prec_text app run_prec]. destruct (ix_cons ix v rest V) as (c & t & E & Hd & _).
    pose proof (finish_after fl w None x ix v rest pre V S) as F. rewrite E in F |- *. unfold with_prec. rewrite Hd. exact F.
  - cbn [prec_text run_prec]. change (B "." ++ ix_text ix ++ v ++ rest) with ("."%char :: (ix_text ix ++ v ++ rest)).
    unfold with_prec. rewrite Ascii.eqb_refl. fold n. rewrite (arg_number_ix ix _ x S (hd_verb_br v rest V)).
    pose proof (hd_verb_digit v rest V) as Hg. pose proof (hd_verb_br v rest V) as Hb.
    assert (F : forall x, finish args fl w (Some 0) x (v ++ rest) pre = (run_verb fl w (Some 0) v x pre, rest))
      by (intros; apply finish_verb, V).
    destruct (verb_plain v V) as (c & t & -> & Pc). cbn [app] in *.
    rewrite (pc_star c Pc). rewrite (parsenum_none _ Hg).
    destruct ix as [p|]; cbn [given].
    + apply F.
    + change (c :: t ++ rest) with (ix_text None ++ (c :: t ++ rest)). rewrite (arg_number_ix None _ _ S Hb). apply F.
  - cbn [prec_text run_prec]. destruct P as (k & E & Ne & Sm). rewrite E.
    change ((B "." ++ ds) ++ ix_text ix ++ v ++ rest) with ("."%char :: (ds ++ ix_text ix ++ v ++ rest)).
    unfold with_prec. rewrite Ascii.eqb_refl. fold n.
    destruct ds as [|c ds]; [congruence|].
    assert (D : is_digit c = true) by (cbn in E; destruct (is_digit c); [reflexivity|discriminate]).
    assert (Db : Ascii.eqb c "[" = false) by (destruct (Ascii.eqb_spec c "["); [subst; discriminate|reflexivity]).
    assert (Ds : Ascii.eqb c "*" = false) by (destruct (Ascii.eqb_spec c "*"); [subst; discriminate|reflexivity]).
    change ((c :: ds) ++ ix_text ix ++ v ++ rest) with (ix_text None ++ ((c :: ds) ++ ix_text ix ++ v ++ rest)).
    rewrite (arg_number_ix None) by (try (intros ? ?; discriminate); intros ? ? [= <- _]; exact Db).
    cbn [given set_ix]. remember ((c :: ds) ++ ix_text ix ++ v ++ rest) as s eqn:Es.
    assert (Pn : parsenum 0 false s = (Z.of_N k, true, ix_text ix ++ v ++ rest)).
    { rewrite Es. change 0 with (Z.of_N 0). rewrite (parsenum_digits _ _ _ false _ E Sm (hd_ixverb_digit ix v rest V)). reflexivity. }
    destruct s as [|c' s']; [discriminate|]. injection Es as -> Es. rewrite Ds, Pn. apply (finish_after fl w _ x ix v rest pre V S).
  - cbn [prec_text run_prec].
    change ((B "." ++ ix_text ix' ++ B "*") ++ ix_text ix ++ v ++ rest) with ("."%char :: ((ix_text ix' ++ B "*") ++ ix_text ix ++ v ++ rest)).
    rewrite <- app_assoc. change (B "*" ++ ix_text ix ++ v ++ rest) with ("*"%char :: (ix_text ix ++ v ++ rest)).
    unfold with_prec. rewrite Ascii.eqb_refl. fold n.
    rewrite (arg_number_ix ix' _ x P) by (intros ? ? [= <- _]; reflexivity). rewrite Ascii.eqb_refl.
    unfold star_prec. destruct (int_from_arg as_int args (s_arg (set_ix ix' x))) as [[z isint] k].
    apply (finish_after fl w _ _ ix v rest _ V S).
Qed.
Lemma with_prec_after fl w x v rest pre : verb_ok v ->
  with_prec as_int args fl w x true (v ++ rest) pre = (run_verb fl w None v x pre, rest).
Proof.
  intros V. pose proof (finish_verb fl w None x v rest pre V) as F.
  destruct (verb_plain v V) as (c & t & -> & P). cbn [app] in *. unfold with_prec. rewrite (pc_dot c P). exact F.
Qed.
Lemma not_lower (c : ascii) {X Y} (f : N -> X -> Y) (m : option X) : ((97 <=? code c)%N && (code c <=? 122)%N = false) ->
  (if (97 <=? code c)%N && (code c <=? 122)%N then match m with Some v => Some (f (code c) v) | None => None end else None) = None.
Proof. intros ->. reflexivity. Qed.
Theorem directive_run d x rest : dir_ok d ->
  directive as_int args x (tl (dir_text d) ++ rest) = (run_dir d x, rest).
Proof.
  intros (Fl & V & Si & Sw & Sp). unfold dir_text. change (tl (B "%" ++ ?a)) with a.
  rewrite <- !app_assoc. unfold directive, run_dir. set (x0 := {| s_arg := s_arg x; s_good := true; s_reord := s_reord x |}).
  assert (Hfl : forallb is_flag (d_flags d) = true).
  { apply forallb_forall. intros c I. apply Fl in I. cbn in I.
    repeat (destruct I as [<-|I]; [reflexivity|]). destruct I. }
  destruct (d_wid d) as [|m|ix'] eqn:Ew; cbn [wid_text run_wid].
  - (* no width *)
    change ([] ++ prec_text (d_prec d) ++ ix_text (d_ix d) ++ d_verb d ++ rest) with (prec_text (d_prec d) ++ ix_text (d_ix d) ++ d_verb d ++ rest).
    pose proof (prec_run (d_flags d) None x0 (d_prec d) (d_ix d) (d_verb d) rest [] V Si Sp) as PR.
    destruct (d_prec d) as [| |ds|ix''] eqn:Ep; cbn [prec_text run_prec] in *.
    + (* no precision *)
      cbn [app] in *. destruct (d_ix d) as [p|] eqn:Ei.
      * rewrite span_app; [|exact Hfl|intros c t [= <- _]; reflexivity].
        change (ix_text (Some p) ++ d_verb d ++ rest) with ("["%char :: (dec_Z (Zpos p) ++ B "]") ++ d_verb d ++ rest).
        cbn [code]. change ((97 <=? code "["%char)%N && (code "["%char <=? 122)%N) with false. cbv iota.
        change ("["%char :: (dec_Z (Zpos p) ++ B "]") ++ d_verb d ++ rest) with (ix_text (Some p) ++ d_verb d ++ rest).
        fold n. rewrite (arg_number_ix _ _ x0 Si (hd_verb_br _ rest V)). cbn [given].
        pose proof (hd_verb_digit (d_verb d) rest V) as Hg.
        pose proof (fun y => with_prec_after (d_flags d) None y (d_verb d) rest [] V) as F.
        destruct (verb_plain _ V) as (c & t & Ev & P). rewrite Ev in *. cbn [app] in *.
        rewrite (pc_star c P), (parsenum_none _ Hg). cbn [andb]. apply F.
      * cbn [ix_text app] in *. destruct (verb_plain _ V) as (c & t & Ev & P).
        rewrite span_app; [|exact Hfl|rewrite Ev; intros c0 t0 [= <- _]; apply P].
        pose proof (hd_verb_br (d_verb d) rest V) as Hb. pose proof (hd_verb_digit (d_verb d) rest V) as Hg.
        assert (Slow : (let '(x1, s2, after) := arg_number n (d_verb d ++ rest) x0 in
             match s2 with
             | c0 :: t0 => if Ascii.eqb c0 "*" then
                 let '(z, isint, k) := int_from_arg as_int args (s_arg x1) in
                 with_prec as_int args (d_flags d) (if isint : bool then Some z else None) (set_arg x1 k) false t0 (if isint : bool then [] else [CBadWidth])
               else let '(z, isnum, s3) := parsenum 0 false s2 in
                 with_prec as_int args (d_flags d) (if isnum : bool then Some z else None) (if after && isnum then set_bad x1 else x1) after s3 []
             | [] => with_prec as_int args (d_flags d) None x1 after [] []
             end) = (run_verb (d_flags d) None None (d_verb d) (set_ix None x0) [], rest)).
        { change (d_verb d ++ rest) with (ix_text None ++ (d_verb d ++ rest)) at 1.
          rewrite (arg_number_ix None _ x0 Si Hb). cbn [given set_ix]. rewrite Ev in *. cbn [app] in *.
          rewrite (pc_star c P), (parsenum_none _ Hg). cbn [andb]. exact PR. }
        fold n. rewrite Ev in Slow |- *. cbn [app] in *.
        destruct ((97 <=? code c)%N && (code c <=? 122)%N) eqn:Lc; [|exact Slow].
        destruct (nth_error args (s_arg x0)) as [a|] eqn:Na; [|exact Slow].
        (* fast path *)
        assert (Et : t = []).
        { destruct V as [(c1 & E1 & _)|(r & Hr & Vr & E1)]; [rewrite E1 in Ev; injection Ev as _ <-; reflexivity|exfalso].
          assert ((128 <= code c)%N) by (apply (encode_rune_high r c Hr); rewrite <- E1, Ev; left; reflexivity). lia. }
        subst t. unfold run_verb, verb_rune. rewrite decode_rune_ascii by lia. cbn [fst set_ix s_good x0 negb].
        destruct (N.eqb_spec (code c) 37); [lia|]. rewrite Na. reflexivity.
    + change (B "." ++ ix_text (d_ix d) ++ d_verb d ++ rest) with ("."%char :: (ix_text (d_ix d) ++ d_verb d ++ rest)) in *.
      rewrite span_app; [|exact Hfl|intros c t [= <- _]; reflexivity].
      change ((97 <=? code "."%char)%N && (code "."%char <=? 122)%N) with false. cbv iota. cbn [arg_number Ascii.eqb Bool.eqb andb].
      exact PR.
    + change ((B "." ++ ds) ++ ix_text (d_ix d) ++ d_verb d ++ rest) with ("."%char :: (ds ++ ix_text (d_ix d) ++ d_verb d ++ rest)) in *.
      rewrite span_app; [|exact Hfl|intros c t [= <- _]; reflexivity].
      change ((97 <=? code "."%char)%N && (code "."%char <=? 122)%N) with false. cbv iota. cbn [arg_number Ascii.eqb Bool.eqb andb].
      exact PR.
    + change ((B "." ++ ix_text ix'' ++ B "*") ++ ix_text (d_ix d) ++ d_verb d ++ rest)
        with ("."%char :: ((ix_text ix'' ++ B "*") ++ ix_text (d_ix d) ++ d_verb d ++ rest)) in *.
      rewrite span_app; [|exact Hfl|intros c t [= <- _]; reflexivity].
      change ((97 <=? code "."%char)%N && (code "."%char <=? 122)%N) with false. cbv iota. cbn [arg_number Ascii.eqb Bool.eqb andb].
      exact PR.
  - (* number *)
    pose proof (prec_run (d_flags d) (Some (Zpos m)) x0 (d_prec d) (d_ix d) (d_verb d) rest [] V Si Sp) as PR.
    destruct (dec_pos_cons m) as (c & t & E & Hc).
    assert (Hflag : is_flag c = false).
    { unfold is_flag. rewrite !eqb_code by (change (code "#"%char) with 35%N || change (code "0"%char) with 48%N || change (code "+"%char) with 43%N || change (code "-"%char) with 45%N || change (code " "%char) with 32%N; lia). reflexivity. }
    rewrite span_app; [|exact Hfl|rewrite E; intros c0 t0 [= <- _]; exact Hflag].
    set (tail := prec_text (d_prec d) ++ ix_text (d_ix d) ++ d_verb d ++ rest) in *.
    assert (Hg : hd_not is_digit tail).
    { unfold tail. intros c0 t0 E0. destruct (d_prec d) as [| |ds|ix'']; cbn in E0; try (injection E0 as <- _; reflexivity).
      exact (hd_ixverb_digit _ _ rest V c0 t0 E0). }
    pose proof (parsenum_digits (dec_Z (Zpos m)) 0 (Npos m) false tail (dec_pos_val m) Sw Hg) as Pn.
    change (Z.of_N 0) with 0 in Pn. rewrite E in Pn |- *. cbn [app orb] in *.
    assert (Lc : (97 <=? code c)%N && (code c <=? 122)%N = false) by lia. rewrite Lc.
    cbn [arg_number]. rewrite !(eqb_code c) by (change (code "["%char) with 91%N || change (code "*"%char) with 42%N; lia).
    rewrite Pn. cbn [andb]. exact PR.
  - (* star *)
    rewrite <- app_assoc.
    change (B "*" ++ prec_text (d_prec d) ++ ix_text (d_ix d) ++ d_verb d ++ rest) with ("*"%char :: (prec_text (d_prec d) ++ ix_text (d_ix d) ++ d_verb d ++ rest)).
    rewrite span_app; [|exact Hfl|destruct ix' as [q|]; intros c t [= <- _]; reflexivity].
    assert (Sim : forall (o : option (arg A)) s, ix_text ix' ++ "*"%char :: s = ix_text ix' ++ "*"%char :: s ->
      match ix_text ix' ++ "*"%char :: s with
      | c :: t => if (97 <=? code c)%N && (code c <=? 122)%N then match o with Some v => Some (code c, t, v) | None => None end else None
      | [] => None end = None).
    { intros o s _. destruct ix'; reflexivity. }
    rewrite Sim by reflexivity. fold n.
    rewrite (arg_number_ix ix' _ x0 Sw) by (intros ? ? [= <- _]; reflexivity). rewrite Ascii.eqb_refl.
    unfold star_wid. destruct (int_from_arg as_int args (s_arg (set_ix ix' x0))) as [[z isint] k].
    apply (prec_run (d_flags d) _ _ (d_prec d) (d_ix d) (d_verb d) rest _ V Si Sp).
Qed.
End Dir.
