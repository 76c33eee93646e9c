(** [unquote] against the relation of LitSpec. *)
From Verif Require Import GoStr GoStrFacts GoQuote GoQuoteFacts LitSpec.
From Coq Require Import Lia ZifyBool ZifyNat ZifyN.
Ltac Zify.zify_post_hook ::= Z.div_mod_to_equations.
Local Open Scope N_scope.

Lemma code_inj a b : code a = code b -> a = b.
Proof. intros H. rewrite <- (byte_of_code a), <- (byte_of_code b), H. reflexivity. Qed.
Lemma utf8_encode r w : utf8 r w <-> valid_rune r = true /\ w = encode_rune r.
Proof.
  split.
  - intros U. unfold encode_rune.
    assert (V : valid_rune r = true) by (unfold valid_rune; destruct U; lia).
    split; [exact V|]. rewrite V.
    assert (K : forall c n, code c = n -> c = byte_of n) by (intros c n <-; symmetry; apply byte_of_code).
    destruct U.
    + destruct (N.ltb_spec r 128); [|lia]. f_equal. apply K. lia.
    + destruct (N.ltb_spec r 128); [lia|]. destruct (N.ltb_spec r 2048); [|lia]. repeat f_equal; apply K; lia.
    + destruct (N.ltb_spec r 128); [lia|]. destruct (N.ltb_spec r 2048); [lia|]. destruct (N.ltb_spec r 65536); [|lia].
      repeat f_equal; apply K; assumption.
    + destruct (N.ltb_spec r 128); [lia|]. destruct (N.ltb_spec r 2048); [lia|]. destruct (N.ltb_spec r 65536); [lia|].
      repeat f_equal; apply K; assumption.
  - intros [V ->]. unfold encode_rune. rewrite V. unfold valid_rune in V.
    destruct (N.ltb_spec r 128); [apply U1; [lia|apply code_byte_of; lia]|].
    destruct (N.ltb_spec r 2048); [apply U2; [lia|apply code_byte_of; lia..]|].
    destruct (N.ltb_spec r 65536); [apply U3; [lia|lia|apply code_byte_of; lia..]|].
    apply U4; [lia|apply code_byte_of; lia..].
Qed.
Lemma hexd_unhex c v : hexd c v <-> unhex c = Some v.
Proof.
  unfold unhex, in_range. split.
  - intros [c' v' H1 H2|c' v' H1 H2|c' v' H1 H2]; rewrite H2.
    + destruct ((48 <=? 48 + v') && (48 + v' <=? 57)) eqn:E; [f_equal; lia|lia].
    + destruct ((48 <=? 97 + (v' - 10)) && (97 + (v' - 10) <=? 57)) eqn:E; [lia|].
      destruct ((97 <=? 97 + (v' - 10)) && (97 + (v' - 10) <=? 102)) eqn:E2; [f_equal; lia|lia].
    + destruct ((48 <=? 65 + (v' - 10)) && (65 + (v' - 10) <=? 57)) eqn:E; [lia|].
      destruct ((97 <=? 65 + (v' - 10)) && (65 + (v' - 10) <=? 102)) eqn:E2; [lia|].
      destruct ((65 <=? 65 + (v' - 10)) && (65 + (v' - 10) <=? 70)) eqn:E3; [f_equal; lia|lia].
  - destruct (_ && _) eqn:E; [intros [= <-]; apply H_09; lia|].
    destruct (_ && _) eqn:E2 at 1; [intros [= <-]; apply H_af; lia|].
    destruct (_ && _) eqn:E3 at 1; [intros [= <-]; apply H_AF; lia|discriminate].
Qed.
Lemma octd_oct c v : octd c v <-> oct c = Some v.
Proof.
  unfold oct, in_range, octd. destruct ((48 <=? code c) && (code c <=? 55)) eqn:E.
  - split; [intros [H1 H2]; f_equal; lia|intros [= <-]; lia].
  - split; [intros [H1 H2]; lia|discriminate].
Qed.
Lemma hexn_cons c d ds v : hexd c d -> hexn ds v -> hexn (c :: ds) (d * 16 ^ N.of_nat (length ds) + v).
Proof.
  intros Hc H. induction H as [|ds c' v d' H IH Hd].
  - cbn [length]. change (c :: []) with ([] ++ [c]). replace (d * 16 ^ N.of_nat 0 + 0) with (16 * 0 + d) by (cbn; lia).
    apply HN_snoc; [constructor|exact Hc].
  - change (c :: ds ++ [c']) with ((c :: ds) ++ [c']). rewrite app_length. cbn [length].
    replace (N.of_nat (length ds + 1)) with (N.succ (N.of_nat (length ds))) by lia. rewrite N.pow_succ_r'.
    replace (d * (16 * 16 ^ N.of_nat (length ds)) + (16 * v + d')) with (16 * (d * 16 ^ N.of_nat (length ds) + v) + d') by nia.
    apply HN_snoc; assumption.
Qed.
Lemma read_hex_hexn ds v : hexn ds v -> forall acc u,
  read_hex (length ds) acc (ds ++ u) = Some (acc * 16 ^ N.of_nat (length ds) + v, u).
Proof.
  induction 1 as [|ds c v d H IH Hd]; intros acc u; [cbn; do 2 f_equal; lia|].
  rewrite app_length. cbn [length]. rewrite <- app_assoc. rewrite read_hex_app, IH. cbn [app read_hex].
  apply hexd_unhex in Hd. rewrite Hd.
  replace (N.of_nat (length ds + 1)) with (N.succ (N.of_nat (length ds))) by lia. rewrite N.pow_succ_r'.
  do 2 f_equal. nia.
Qed.
Lemma read_hex_inv : forall k acc u v u', read_hex k acc u = Some (v, u') ->
  exists ds d, u = ds ++ u' /\ length ds = k /\ hexn ds d /\ v = acc * 16 ^ N.of_nat k + d.
Proof.
  induction k as [|k IH]; intros acc u v u'; cbn [read_hex].
  - intros [= <- <-]. exists [], 0. repeat split; [constructor|]. cbn. lia.
  - destruct u as [|c u]; [discriminate|]. destruct (unhex c) as [x|] eqn:E; [|discriminate].
    intros H. apply IH in H as (ds & d & -> & L & Hd & ->). apply hexd_unhex in E.
    exists (c :: ds), (x * 16 ^ N.of_nat (length ds) + d). split; [reflexivity|]. split; [cbn [length]; lia|].
    split; [apply hexn_cons; assumption|]. rewrite L.
    replace (N.of_nat (S k)) with (N.succ (N.of_nat k)) by lia. rewrite N.pow_succ_r'. nia.
Qed.
Lemma hexn_bound ds v : hexn ds v -> v < 16 ^ N.of_nat (length ds).
Proof.
  induction 1 as [|ds c v d H IH Hd]; [cbn; lia|]. rewrite app_length. cbn [length].
  replace (N.of_nat (length ds + 1)) with (N.succ (N.of_nat (length ds))) by lia. rewrite N.pow_succ_r'.
  assert (d < 16) by (destruct Hd; lia). nia.
Qed.

(** no character begins at an invalid byte, and what follows a quote does not matter *)
Definition nochar (s : bytes) : Prop := forall r x y, utf8 r x -> s <> x ++ y.
Lemma utf8_high r w c : utf8 r w -> In c w -> 0x80 <= r -> 0x80 <= code c.
Proof. intros U Hc Hr. apply utf8_encode in U as [_ ->]. apply (encode_rune_high r c Hr Hc). Qed.
Lemma utf8_head r w : utf8 r w -> exists c t, w = c :: t /\ (r < 0x80 -> code c = r /\ t = []) /\ (0x80 <= r -> 0x80 <= code c).
Proof. destruct 1; eexists _, _; (split; [reflexivity|]); split; intros; [split; [lia|try reflexivity; lia]|lia..]. Qed.
Lemma nochar_quote c s q rest : 0x80 <= code c -> code q < 0x80 -> nochar (c :: s) <-> nochar (c :: s ++ q :: rest).
Proof.
  intros Hc Hq. split; intros H r x y U E.
  - destruct (utf8_head r x U) as (c' & t & -> & H1 & H2). injection E as <- E.
    assert (Hr : 128 <= r) by (destruct (N.lt_ge_cases r 128); [specialize (H1 H0); lia|lia]).
    assert (Hh : forall d, In d t -> 128 <= code d) by (intros d Hd; apply (utf8_high _ _ _ U); [right; exact Hd|exact Hr]).
    enough (exists y', s = t ++ y') as [y' ->] by (apply (H r (c :: t) y' U); reflexivity).
    clear - E Hh Hq. revert s E. induction t as [|d t IH]; intros s E; [exists s; reflexivity|].
    destruct s as [|x s]; cbn in E.
    + injection E as -> _. specialize (Hh d (or_introl eq_refl)). lia.
    + injection E as -> E. destruct (IH (fun z Hz => Hh z (or_intror Hz)) s E) as [y' ->]. exists y'. reflexivity.
  - apply (H r x (y ++ q :: rest) U). rewrite app_assoc, <- E. reflexivity.
Qed.
Lemma ch_quote q w t s rest : code q < 0x80 -> ch q w t s <-> ch q w t (s ++ q :: rest).
Proof.
  intros Hq. split; inversion 1; subst; try (econstructor; eassumption).
  - eapply C_bad; try eassumption. apply nochar_quote; assumption.
  - eapply C_bad; try eassumption. eapply nochar_quote; eassumption.
Qed.
Lemma nochar_decode c s : 0x80 <= code c -> nochar (c :: s) <-> decode_rune (c :: s) = (RuneError, 1%nat).
Proof.
  intros Hc. split.
  - intros H. destruct (decode_rune (c :: s)) as [r w] eqn:D.
    destruct (N.eq_dec r RuneError) as [->|N1]; [destruct (Nat.eq_dec w 1) as [->|N2]; [reflexivity|]|];
      (destruct (decode_encode (c :: s) _ _ ltac:(discriminate) D) as (V & E & _); [intros []; congruence|]);
      exfalso; eapply H; [apply utf8_encode; split; [exact V|reflexivity]|exact E|apply utf8_encode; split; [exact V|reflexivity]|exact E].
  - intros D r x y U E. pose proof U as U'. apply utf8_encode in U as [V ->]. rewrite E in D.
    rewrite encode_decode in D by exact V. injection D as -> D. vm_compute in D. discriminate.
Qed.

Definition outb (r : N) (m : bool) : bytes := if (r <? 0x80) || negb m then [byte_of r] else encode_rune r.
Section Q.
Variable q : ascii.
Hypothesis Hq : q = DQ \/ q = SQ.
Lemma q_facts : code q < 0x80 /\ q <> BSL /\ q <> NL /\ (Ascii.eqb q SQ || Ascii.eqb q DQ) = true /\ oct q = None
  /\ (Ascii.eqb q "a" || Ascii.eqb q "b" || Ascii.eqb q "f" || Ascii.eqb q "n" || Ascii.eqb q "r" || Ascii.eqb q "t"
      || Ascii.eqb q "v" || Ascii.eqb q "x" || Ascii.eqb q "u" || Ascii.eqb q "U") = false.
Proof. destruct Hq; subst q; repeat split; try discriminate. Qed.

Lemma char_ch s r m rem : unquote_char s q = Some (r, m, rem) -> (forall t, s <> NL :: t) ->
  exists w, s = w ++ rem /\ w <> [] /\ ch q w (outb r m) rem.
Proof.
  destruct q_facts as (Q1 & Q2 & Q3 & Q4 & Q5 & Q6).
  destruct s as [|c t]; [discriminate|]. cbn [unquote_char]. rewrite Q4, andb_true_r. intros H HN.
  assert (Hc : c <> NL) by (intros ->; apply (HN t); reflexivity). clear HN.
  revert H. destruct (Ascii.eqb_spec c q) as [|Nq]; [discriminate|].
  destruct (N.leb_spec 128 (code c)) as [L|L].
  { destruct (decode_rune (c :: t)) as [r' w] eqn:D. intros [= -> <- <-].
    pose proof (decode_rune_high c t L) as Hr. rewrite D in Hr. cbn [fst] in Hr.
    assert (O : outb r true = encode_rune r) by (unfold outb; destruct (N.ltb_spec r 128); [lia|reflexivity]).
    rewrite O. clear O.
    assert (B : (r = RuneError /\ w = 1%nat) \/ ~ (r = RuneError /\ w = 1%nat)) by lia.
    destruct B as [[-> ->]|B].
    - exists [c]. split; [reflexivity|]. split; [discriminate|]. cbn [skipn].
      apply C_bad; [exact L|apply nochar_decode; assumption|apply utf8_encode; split; reflexivity].
    - destruct (decode_encode (c :: t) r w ltac:(discriminate) D B) as (V & E & _).
      exists (encode_rune r). split; [exact E|]. split; [apply encode_rune_nonempty|].
      apply (C_char q r); [exact Hr|apply utf8_encode; split; [exact V|reflexivity]]. }
  destruct (Ascii.eqb_spec c BSL) as [->|Nb]; cbn [negb].
  2:{ intros [= <- <- <-]. exists [c]. split; [reflexivity|]. split; [discriminate|].
      unfold outb. rewrite orb_true_r, byte_of_code. apply C_ascii; assumption. }
  destruct t as [|e u]; [discriminate|].
  assert (S : forall v : N, v < 256 -> In (e, v) (escapes q) ->
    Some (v, false, u) = Some (r, m, rem) -> exists w, BSL :: e :: u = w ++ rem /\ w <> [] /\ ch q w (outb r m) rem).
  { intros v Hv Hi [= <- <- <-]. exists [BSL; e]. split; [reflexivity|]. split; [discriminate|].
    unfold outb. rewrite orb_true_r. apply C_esc. rewrite code_byte_of by exact Hv. exact Hi. }
  do 7 (match goal with |- (if Ascii.eqb ?a ?b then _ else _) = _ -> _ => destruct (Ascii.eqb_spec a b) as [->|]; [apply S; [lia|cbn; tauto]|] end).
  destruct (Ascii.eqb_spec e "x") as [->|].
  { destruct (read_hex 2 0 u) as [[v u']|] eqn:E; [|discriminate]. intros [= -> <- ->].
    apply read_hex_inv in E as (ds & d & -> & Ln & Hd & ->). exists (BSL :: "x"%char :: ds).
    split; [reflexivity|]. split; [discriminate|]. unfold outb. rewrite orb_true_r.
    apply C_hex; [|exact Ln]. pose proof (hexn_bound _ _ Hd) as Hb. rewrite Ln in Hb. cbn in Hb.
    rewrite code_byte_of by lia. exact Hd. }
  assert (SU : forall l k ds d, (l = "u"%char /\ k = 4%nat \/ l = "U"%char /\ k = 8%nat) -> length ds = k -> hexn ds d -> valid_rune d = true ->
    u = ds ++ rem -> r = d -> m = true -> e = l -> exists w, BSL :: e :: u = w ++ rem /\ w <> [] /\ ch q w (outb r m) rem).
  { intros l k ds d Hl Ln Hd V -> -> -> ->. exists (BSL :: l :: ds). split; [reflexivity|]. split; [discriminate|].
    assert (O : outb d true = encode_rune d).
    { unfold outb. destruct (N.ltb_spec d 128) as [Ld|Ld]; [cbn [orb]; rewrite encode_rune_ascii by exact Ld|]; reflexivity. }
    rewrite O. assert (utf8 d (encode_rune d)) by (apply utf8_encode; split; [exact V|reflexivity]).
    destruct Hl as [[-> ->]|[-> ->]]; [eapply C_u|eapply C_U]; eassumption. }
  destruct (Ascii.eqb_spec e "u") as [->|].
  { destruct (read_hex 4 0 u) as [[v u']|] eqn:E; [|discriminate].
    destruct (valid_rune v) eqn:V; [|discriminate]. intros [= -> <- ->].
    apply read_hex_inv in E as (ds & d & -> & Ln & Hd & ->). rewrite N.mul_0_l, N.add_0_l in *.
    eapply (SU "u"%char 4%nat); try reflexivity; [tauto|exact Ln|exact Hd|exact V]. }
  destruct (Ascii.eqb_spec e "U") as [->|].
  { destruct (read_hex 8 0 u) as [[v u']|] eqn:E; [|discriminate].
    destruct (valid_rune v) eqn:V; [|discriminate]. intros [= -> <- ->].
    apply read_hex_inv in E as (ds & d & -> & Ln & Hd & ->). rewrite N.mul_0_l, N.add_0_l in *.
    eapply (SU "U"%char 8%nat); try reflexivity; [tauto|exact Ln|exact Hd|exact V]. }
  destruct (oct e) as [v0|] eqn:E0.
  { destruct u as [|o1 [|o2 u']]; [discriminate..|].
    destruct (oct o1) as [v1|] eqn:E1; [|discriminate]. destruct (oct o2) as [v2|] eqn:E2; [|discriminate].
    destruct (N.ltb_spec 255 (v0 * 64 + v1 * 8 + v2)) as [|Hv]; [discriminate|]. intros [= <- <- <-].
    exists [BSL; e; o1; o2]. split; [reflexivity|]. split; [discriminate|]. unfold outb. rewrite orb_true_r.
    eapply C_oct; [apply octd_oct; eassumption..|]. rewrite code_byte_of by lia. lia. }
  destruct (Ascii.eqb_spec e BSL) as [->|]; [apply S; [reflexivity|cbn; tauto]|].
  destruct (Ascii.eqb e SQ || Ascii.eqb e DQ); [|discriminate].
  destruct (Ascii.eqb_spec e q) as [->|]; [|discriminate]. apply S; [lia|cbn; tauto].
Qed.

Lemma ch_char w t s : ch q w t s -> exists c u r m, w = c :: u /\ c <> q /\ c <> NL
  /\ unquote_char (w ++ s) q = Some (r, m, s) /\ outb r m = t.
Proof.
  destruct q_facts as (Q1 & Q2 & Q3 & Q4 & Q5 & Q6).
  assert (Nb : Ascii.eqb BSL q = false) by (apply Ascii.eqb_neq; congruence).
  intros C. destruct C as [c s H1 H2 H3 H4|r w s Hr U|c w s Hc Hn U|e c s Hi|x y z a b d c s Hx Hy Hz Hv|ds c s Hd Hl|ds r w s Hd Hl U|ds r w s Hd Hl U].
  - exists c, [], (code c), false. split; [reflexivity|]. split; [exact H2|]. split; [exact H4|].
    cbn [app unquote_char]. rewrite (eqb_false c q) by exact H2. cbn [andb].
    destruct (N.leb_spec 128 (code c)); [lia|]. rewrite (eqb_false c BSL) by exact H3. cbn [negb].
    split; [reflexivity|]. unfold outb. rewrite orb_true_r, byte_of_code. reflexivity.
  - destruct (utf8_head r w U) as (c & u & -> & _ & Hc). specialize (Hc Hr).
    exists c, u, r, true. split; [reflexivity|]. split; [intros ->; lia|]. split; [intros ->; cbn in Hc; lia|].
    apply utf8_encode in U as [V E]. split.
    + cbn [app unquote_char]. rewrite (eqb_false c q) by (intros ->; lia). cbn [andb].
      destruct (N.leb_spec 128 (code c)); [|lia]. change (c :: u ++ s) with ((c :: u) ++ s). rewrite E.
      rewrite encode_decode by exact V. rewrite skipn_app, skipn_all, Nat.sub_diag. reflexivity.
    + rewrite E. unfold outb. destruct (N.ltb_spec r 128); [lia|reflexivity].
  - exists c, [], RuneError, true. split; [reflexivity|]. split; [intros ->; lia|]. split; [intros ->; cbn in Hc; lia|].
    apply utf8_encode in U as [V ->]. split; [|reflexivity].
    cbn [app unquote_char]. rewrite (eqb_false c q) by (intros ->; lia). cbn [andb].
    destruct (N.leb_spec 128 (code c)); [|lia].
    assert (D : decode_rune (c :: s) = (RuneError, 1%nat)) by (apply nochar_decode; [exact Hc|exact Hn]).
    rewrite D. reflexivity.
  - exists BSL, [e], (code c), false. split; [reflexivity|]. split; [congruence|]. split; [discriminate|].
    unfold outb. rewrite orb_true_r, byte_of_code. split; [|reflexivity].
    cbn [app unquote_char]. rewrite Nb. cbn [andb]. change (128 <=? code BSL) with false. cbv iota.
    change (negb (Ascii.eqb BSL BSL)) with false. cbv iota.
    unfold escapes in Hi. cbn [In] in Hi.
    assert (K : forall (a b : ascii) (v : N), (a, v) = (b, code c) -> a = b /\ v = code c)
      by (intros a b v E; split; [exact (f_equal fst E)|exact (f_equal snd E)]).
    repeat (destruct Hi as [Hi|Hi]; [apply K in Hi as [<- <-]; try reflexivity|]); [|destruct Hi].
    rewrite !orb_false_iff in Q6.
    destruct Q6 as (((((((((Qa & Qb) & Qf) & Qn) & Qr) & Qt) & Qv) & Qx) & Qu) & QU).
    rewrite Qa, Qb, Qf, Qn, Qr, Qt, Qv, Qx, Qu, QU, Q5. rewrite (eqb_false q BSL) by exact Q2.
    rewrite Q4, Ascii.eqb_refl. reflexivity.
  - exists BSL, [x; y; z], (code c), false. split; [reflexivity|]. split; [congruence|]. split; [discriminate|].
    unfold outb. rewrite orb_true_r, byte_of_code. split; [|reflexivity].
    cbn [app unquote_char]. rewrite Nb. cbn [andb]. change (128 <=? code BSL) with false. cbv iota.
    change (negb (Ascii.eqb BSL BSL)) with false. cbv iota.
    assert (Nx : forall l, 64 <= code l -> Ascii.eqb x l = false).
    { intros l Hl. apply Ascii.eqb_neq. intros ->. destruct Hx. lia. }
    rewrite !Nx by (cbn; lia). apply octd_oct in Hx, Hy, Hz. rewrite Hx, Hy, Hz.
    pose proof (code_lt c). replace (a * 64 + b * 8 + d) with (code c) by lia.
    destruct (N.ltb_spec 255 (code c)); [lia|reflexivity].
  - exists BSL, ("x"%char :: ds), (code c), false. split; [reflexivity|]. split; [congruence|]. split; [discriminate|].
    unfold outb. rewrite orb_true_r, byte_of_code. split; [|reflexivity].
    cbn [app unquote_char]. rewrite Nb. cbn [andb Ascii.eqb Bool.eqb]. change (128 <=? code BSL) with false. cbv iota.
    change (negb (Ascii.eqb BSL BSL)) with false. cbv iota.
    pose proof (read_hex_hexn _ _ Hd 0 s) as R. rewrite Hl in R. rewrite R. reflexivity.
  - apply utf8_encode in U as [V ->].
    exists BSL, ("u"%char :: ds), r, true. split; [reflexivity|]. split; [congruence|]. split; [discriminate|].
    split; [|unfold outb; destruct (N.ltb_spec r 128) as [Ld|Ld]; [cbn [orb]; rewrite encode_rune_ascii by exact Ld|]; reflexivity].
    cbn [app unquote_char]. rewrite Nb. cbn [andb Ascii.eqb Bool.eqb]. change (128 <=? code BSL) with false. cbv iota.
    change (negb (Ascii.eqb BSL BSL)) with false. cbv iota.
    pose proof (read_hex_hexn _ _ Hd 0 s) as R. rewrite Hl in R. rewrite R. rewrite N.mul_0_l, N.add_0_l, V. reflexivity.
  - apply utf8_encode in U as [V ->].
    exists BSL, ("U"%char :: ds), r, true. split; [reflexivity|]. split; [congruence|]. split; [discriminate|].
    split; [|unfold outb; destruct (N.ltb_spec r 128) as [Ld|Ld]; [cbn [orb]; rewrite encode_rune_ascii by exact Ld|]; reflexivity].
    cbn [app unquote_char]. rewrite Nb. cbn [andb Ascii.eqb Bool.eqb]. change (128 <=? code BSL) with false. cbv iota.
    change (negb (Ascii.eqb BSL BSL)) with false. cbv iota.
    pose proof (read_hex_hexn _ _ Hd 0 s) as R. rewrite Hl in R. rewrite R. rewrite N.mul_0_l, N.add_0_l, V. reflexivity.
Qed.
End Q.

(** ** Strings *)
Lemma dq_code : code DQ < 0x80. Proof. reflexivity. Qed.
Lemma loop_lit : forall f s o rest, (length s < f)%nat ->
  unquote_loop f DQ s = Some (o, rest) <-> exists body, s = body ++ DQ :: rest /\ lit body o.
Proof.
  intros f s o rest Hf. split.
  - clear Hf. revert s o. induction f as [|f IH]; intros s o; [discriminate|].
    destruct s as [|c t]; [discriminate|]. cbn [unquote_loop].
    destruct (Ascii.eqb_spec c DQ) as [->|Nq].
    + intros [= <- <-]. exists []. split; [reflexivity|constructor].
    + destruct (unquote_char (c :: t) DQ) as [[[r m] rem]|] eqn:E; [|discriminate].
      destruct (Ascii.eqb_spec c NL) as [|Nn]; [discriminate|].
      change (Ascii.eqb DQ SQ) with false. cbv iota.
      destruct (unquote_loop f DQ rem) as [[o' rest']|] eqn:L; [|discriminate]. intros [= <- ->].
      apply IH in L as (body & -> & Hb).
      apply (char_ch DQ (or_introl eq_refl)) in E as (w & E & _ & Hc); [|intros u [= -> _]; congruence].
      apply ch_quote in Hc; [|reflexivity]. exists (w ++ body). split; [rewrite E, app_assoc; reflexivity|].
      apply (L_cons w (outb r m) body o'); assumption.
  - intros (body & -> & Hb). revert f Hf. induction Hb as [|w x s t Hc Hb IH]; intros f Hf.
    + destruct f as [|f]; [lia|]. reflexivity.
    + apply (ch_quote DQ w x s rest dq_code) in Hc.
      destruct (ch_char DQ (or_introl eq_refl) _ _ _ Hc) as (c & u & r & m & -> & Nq & Nn & E & O).
      rewrite <- app_assoc in Hf |- *. destruct f as [|f]; [lia|].
      rewrite (unquote_loop_step f _ c (u ++ s ++ DQ :: rest) r m (s ++ DQ :: rest)); try assumption; [|reflexivity].
      rewrite IH; [|cbn [length app] in Hf; rewrite app_length in Hf; lia].
      rewrite <- O. reflexivity.
Qed.
Lemma unquote_lit t o : unquote (DQ :: t) = Some o <-> exists body, t = body ++ [DQ] /\ lit body o.
Proof.
  rewrite unquote_dq. rewrite <- (loop_lit (S (length t)) t o []) by lia.
  destruct (unquote_loop (S (length t)) DQ t) as [[o' [|x r]]|]; split; try discriminate; intros [= <-]; reflexivity.
Qed.

Lemma loop_sq f t o rest : unquote_loop (S f) SQ t = Some (o, rest) <->
  (t = SQ :: rest /\ o = []) \/ exists body, t = body ++ SQ :: rest /\ ch SQ body o [].
Proof.
  split.
  - destruct t as [|c u]; [discriminate|]. cbn [unquote_loop].
    destruct (Ascii.eqb_spec c SQ) as [->|Nq]; [intros [= <- ->]; left; split; reflexivity|].
    destruct (unquote_char (c :: u) SQ) as [[[r m] rem]|] eqn:E; [|discriminate].
    destruct (Ascii.eqb_spec c NL) as [|Nn]; [discriminate|]. rewrite Ascii.eqb_refl.
    destruct rem as [|d rem]; [discriminate|]. destruct (Ascii.eqb_spec d SQ) as [->|]; [|discriminate].
    intros [= <- ->]. right.
    apply (char_ch SQ (or_intror eq_refl)) in E as (w & E & _ & Hc); [|intros x [= -> _]; congruence].
    exists w. split; [exact E|]. apply (ch_quote SQ w _ [] rest); [reflexivity|exact Hc].
  - intros [[-> ->]|(body & -> & Hc)]; [reflexivity|].
    apply (ch_quote SQ body o [] rest) in Hc; [|reflexivity]. cbn [app] in Hc.
    destruct (ch_char SQ (or_intror eq_refl) _ _ _ Hc) as (c & u & r & m & -> & Nq & Nn & E & O).
    cbn [app unquote_loop] in E |- *. rewrite (eqb_false c SQ Nq), E, (eqb_false c NL Nn), !Ascii.eqb_refl.
    rewrite <- O. reflexivity.
Qed.
Lemma unquote_sq t :
  unquote (SQ :: t) = match unquote_loop (S (length t)) SQ t with Some (o, []) => Some o | _ => None end.
Proof.
  unfold unquote. destruct (index_byte SQ t) as [e|] eqn:E.
  - change (Ascii.eqb SQ BQ) with false. change (Ascii.eqb SQ DQ || Ascii.eqb SQ SQ) with true.
    change (Ascii.eqb SQ DQ) with false. cbv iota beta.
    match goal with |- context[if ?b then _ else _] => destruct b eqn:F end; [|reflexivity].
    apply andb_true_iff in F as [F F3]. apply andb_true_iff in F as [F1 F2].
    apply negb_true_iff in F1, F2. apply contains_byte_false in F1, F2.
    apply index_byte_some in E as (E1 & E2 & E3).
    assert (L : unquote_loop (S (length t)) SQ t = Some (firstn e t, skipn (S e) t)).
    { apply loop_sq. right. exists (firstn e t). split; [exact E1|].
      destruct (firstn e t) as [|c u]; [discriminate|]. destruct (decode_rune (c :: u)) as [r w] eqn:D.
      apply andb_true_iff in F3 as [F3 F4]. apply Nat.eqb_eq in F3.
      destruct (decode_encode (c :: u) r w) as (V & Hs & Hw); [discriminate|exact D|lia|].
      assert (U : utf8 r (c :: u)).
      { apply utf8_encode. split; [exact V|]. rewrite Hs at 1. rewrite F3, skipn_all, app_nil_r. reflexivity. }
      destruct (N.lt_ge_cases r 128) as [Lr|Lr]; [|apply (C_char SQ r); assumption].
      destruct (utf8_head r _ U) as (c' & u' & [= <- <-] & Hr & _). destruct (Hr Lr) as [Hc ->].
      apply C_ascii; [lia|..]; intros ->; [apply E2|apply F1|apply F2]; left; reflexivity. }
    rewrite L. destruct (skipn (S e) t); reflexivity.
  - apply index_byte_none in E.
    destruct (unquote_loop (S (length t)) SQ t) as [[o rest]|] eqn:L; [|reflexivity].
    exfalso. apply E. apply loop_sq in L as [[-> _]|(body & -> & _)]; [left; reflexivity|].
    apply in_or_app. right; left; reflexivity.
Qed.
Lemma unquote_bq t o : unquote (BQ :: t) = Some o <->
  exists body, t = body ++ [BQ] /\ ~ In BQ body /\ o = filter (fun c => negb (Ascii.eqb c CR)) body.
Proof.
  unfold unquote. rewrite (Ascii.eqb_refl BQ). split.
  - destruct (index_byte BQ t) as [e|] eqn:E; [|discriminate]. apply index_byte_some in E as (E1 & E2 & E3).
    destruct (skipn (S e) t) eqn:R; [|discriminate]. intros [= <-]. exists (firstn e t). repeat split; assumption.
  - intros (body & -> & N & ->).
    assert (E : index_byte BQ (body ++ [BQ]) = Some (length body)).
    { apply index_byte_some. rewrite firstn_app, firstn_all, Nat.sub_diag, app_nil_r.
      split; [|split; [exact N|rewrite app_length; cbn [length]; lia]].
      f_equal. f_equal. rewrite skipn_all2; [reflexivity|]. rewrite app_length. cbn [length]. lia. }
    rewrite E. rewrite skipn_all2 by (rewrite app_length; cbn [length]; lia).
    rewrite firstn_app, firstn_all, Nat.sub_diag, app_nil_r. reflexivity.
Qed.

Theorem unquote_literal s t : unquote s = Some t <-> literal s t.
Proof.
  split.
  - destruct s as [|q s]; [discriminate|].
    destruct (Ascii.eqb_spec q DQ) as [->|N1].
    { intros H. apply unquote_lit in H as (body & -> & H). apply L_double, H. }
    destruct (Ascii.eqb_spec q BQ) as [->|N2].
    { intros H. apply unquote_bq in H as (body & -> & H & ->). apply L_raw, H. }
    destruct (Ascii.eqb_spec q SQ) as [->|N3].
    { rewrite unquote_sq. destruct (unquote_loop _ SQ s) as [[o [|x r]]|] eqn:L; try discriminate. intros [= <-].
      apply loop_sq in L as [[-> ->]|(body & -> & H)]; [apply L_none|apply L_one, H]. }
    unfold unquote. destruct (index_byte q s); [|discriminate].
    rewrite (eqb_false q BQ N2), (eqb_false q DQ N1), (eqb_false q SQ N3). discriminate.
  - intros [body t' H|body H| |body t' H].
    + apply unquote_lit. eauto.
    + apply unquote_bq. eauto.
    + reflexivity.
    + rewrite unquote_sq. assert (L : unquote_loop (S (length (body ++ [SQ]))) SQ (body ++ [SQ]) = Some (t', [])).
      { apply loop_sq. right. eauto. }
      rewrite L. reflexivity.
Qed.
