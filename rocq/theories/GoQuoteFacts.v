(** Round trip of [quote] and [unquote]. *)
From Verif Require Import QuoteSpec GoStr GoStrFacts GoQuote.
From Coq Require Import Lia ZifyBool ZifyNat ZifyN.
Ltac Zify.zify_post_hook ::= Z.div_mod_to_equations.
Local Open Scope N_scope.

Lemma lowerhex_unhex n : n < 16 -> unhex (lowerhex n) = Some n.
Proof.
  intros H. unfold lowerhex, unhex, in_range.
  destruct (N.ltb_spec n 10); rewrite code_byte_of by lia.
  - destruct ((48 <=? 48 + n) && (48 + n <=? 57)) eqn:E; [f_equal; lia|lia].
  - destruct ((48 <=? 87 + n) && (87 + n <=? 57)) eqn:E; [lia|].
    destruct ((97 <=? 87 + n) && (87 + n <=? 102)) eqn:E2; [f_equal; lia|lia].
Qed.
Lemma read_hex_app k k' acc s t :
  read_hex (k + k') acc (s ++ t) =
  match read_hex k acc (s ++ t) with Some (v, u) => read_hex k' v u | None => None end.
Proof.
  revert acc s t; induction k as [|k IH]; intros acc s t; cbn [read_hex Nat.add]; [reflexivity|].
  destruct (s ++ t) as [|c u] eqn:E; [reflexivity|].
  destruct (unhex c); [|reflexivity]. apply (IH _ [] u).
Qed.
Lemma read_hex_digits k : forall acc n t,
  n < 16 ^ N.of_nat k ->
  read_hex k acc (hex_digits k n ++ t) = Some (acc * 16 ^ N.of_nat k + n, t).
Proof.
  induction k as [|k IH]; intros acc n t H.
  - cbn. cbn in H. f_equal. f_equal. lia.
  - cbn [hex_digits]. replace (S k) with (k + 1)%nat by lia.
    rewrite read_hex_app. rewrite <- app_assoc.
    rewrite Nat2N.inj_succ, N.pow_succ_r' in H.
    rewrite IH by lia. cbn [app read_hex].
    rewrite lowerhex_unhex by lia. f_equal. f_equal.
    replace (N.of_nat (k + 1)) with (N.succ (N.of_nat k)) by lia.
    rewrite N.pow_succ_r'. lia.
Qed.
Lemma hex_digits_length k n : length (hex_digits k n) = k.
Proof. revert n; induction k; intros n; cbn; [reflexivity|]. rewrite app_length, IHk. cbn. lia. Qed.

Definition is_hexc (c : ascii) : bool := in_range 48 57 c || in_range 97 102 c.
Lemma hex_digits_hexc k n c : In c (hex_digits k n) -> is_hexc c = true.
Proof.
  revert n; induction k as [|k IH]; intros n; cbn [hex_digits]; [intros []|].
  rewrite in_app_iff. intros [H|[<-|[]]]; [eapply IH; exact H|].
  unfold is_hexc, lowerhex, in_range. destruct (N.ltb_spec (n mod 16) 10); rewrite code_byte_of; lia.
Qed.

(** one step of the unquoting loop *)
Lemma unquote_loop_step f s c t r m rem :
  s = c :: t -> c <> DQ -> c <> NL ->
  unquote_char s DQ = Some (r, m, rem) ->
  unquote_loop (S f) DQ s =
  match unquote_loop f DQ rem with
  | Some (o, rest) =>
      Some ((if (r <? 0x80) || negb m then [byte_of r] else encode_rune r) ++ o, rest)
  | None => None
  end.
Proof.
  intros -> H1 H2 H. cbn [unquote_loop].
  destruct (Ascii.eqb_spec c DQ); [contradiction|]. rewrite H.
  destruct (Ascii.eqb_spec c NL); [contradiction|]. reflexivity.
Qed.

Lemma eqb_false a b : a <> b -> Ascii.eqb a b = false.
Proof. apply Ascii.eqb_neq. Qed.

(** a raw character which is neither a quote nor a backslash *)
Lemma unquote_char_raw r t : valid_rune r = true -> r <> 34 -> r <> 92 ->
  unquote_char (encode_rune r ++ t) DQ = Some (r, 0x80 <=? r, t).
Proof.
  intros V H1 H2. destruct (N.ltb_spec r 128) as [L|L].
  - rewrite encode_rune_ascii by exact L. cbn [app unquote_char].
    rewrite (eqb_false (byte_of r) DQ).
    2:{ intros E. apply (f_equal code) in E. rewrite code_byte_of in E by lia. cbn in E. lia. }
    cbn [andb]. rewrite code_byte_of by lia.
    destruct (N.leb_spec 128 r); [lia|].
    rewrite (eqb_false (byte_of r) BSL); [reflexivity|].
    intros E. apply (f_equal code) in E. rewrite code_byte_of in E by lia. cbn in E. lia.
  - pose proof (encode_decode r t V) as D.
    pose proof (fun c => encode_rune_high r c L) as Hh.
    destruct (encode_rune r) as [|c u] eqn:E; [destruct (encode_rune_nonempty r E)|].
    assert (Hc : 128 <= code c) by (apply Hh; left; reflexivity).
    change ((c :: u) ++ t) with (c :: (u ++ t)) in *.
    cbn [unquote_char].
    rewrite (eqb_false c DQ) by (intros ->; cbn in Hc; lia). cbn [andb].
    destruct (N.leb_spec 128 (code c)); [|lia]. rewrite D.
    destruct (N.leb_spec 128 r); [|lia].
    change (c :: u ++ t) with ((c :: u) ++ t).
    rewrite skipn_app, skipn_all, Nat.sub_diag. reflexivity.
Qed.

Lemma encode_rune_head r : valid_rune r = true -> r <> 34 -> r <> 10 ->
  exists c u, encode_rune r = c :: u /\ c <> DQ /\ c <> NL.
Proof.
  intros V H1 H2. destruct (encode_rune r) as [|c u] eqn:E; [destruct (encode_rune_nonempty r E)|].
  exists c, u. split; [reflexivity|]. destruct (N.ltb_spec r 128) as [L|L].
  - rewrite encode_rune_ascii in E by exact L. injection E as <- <-.
    split; intros E; apply (f_equal code) in E; rewrite code_byte_of in E by lia; cbn in E; lia.
  - assert (Hc : 128 <= code c) by (apply (encode_rune_high r c L); rewrite E; left; reflexivity).
    split; intros ->; cbn in Hc; lia.
Qed.

Section Quote.
Variable isp : N -> bool.

Lemma unquote_escape_rune f r t : valid_rune r = true ->
  unquote_loop (S f) DQ (escape_rune isp r ++ t) =
  match unquote_loop f DQ t with
  | Some (o, rest) => Some (encode_rune r ++ o, rest)
  | None => None
  end.
Proof.
  intros V. unfold escape_rune.
  destruct ((r =? code DQ) || (r =? code BSL)) eqn:E1.
  { assert (Hr : r = 34 \/ r = 92) by (cbn in E1; lia).
    destruct Hr as [-> | ->]; reflexivity. }
  assert (R1 : r <> 34 /\ r <> 92) by (cbn in E1; lia).
  destruct (is_print isp r) eqn:E2.
  { assert (R2 : r <> 10). { intros ->. discriminate. }
    destruct (encode_rune_head r V) as (c & u & E & Hc1 & Hc2); [tauto|exact R2|].
    erewrite unquote_loop_step with (c := c) (t := u ++ t);
      [|rewrite E; reflexivity|exact Hc1|exact Hc2|apply unquote_char_raw; tauto].
    destruct (unquote_loop f DQ t) as [[o rest]|]; [|reflexivity].
    destruct (N.ltb_spec r 128) as [L|L].
    - cbn [orb]. rewrite encode_rune_ascii by exact L. reflexivity.
    - destruct (N.leb_spec 128 r); [reflexivity|lia]. }
  assert (S : forall b v, unquote_char (BSL :: b ++ t) DQ = Some (v, false, t) -> v < 128 ->
     unquote_loop (S f) DQ ((BSL :: b) ++ t) =
     match unquote_loop f DQ t with
     | Some (o, rest) => Some (encode_rune v ++ o, rest)
     | None => None
     end).
  { intros b v H L. erewrite unquote_loop_step with (c := BSL) (t := b ++ t);
      [|reflexivity|discriminate|discriminate|exact H].
    rewrite encode_rune_ascii by exact L. rewrite orb_true_r. reflexivity. }
  destruct (N.eqb_spec r 7) as [->|N7]; [apply S; [reflexivity|lia]|].
  destruct (N.eqb_spec r 8) as [->|N8]; [apply S; [reflexivity|lia]|].
  destruct (N.eqb_spec r 12) as [->|N12]; [apply S; [reflexivity|lia]|].
  destruct (N.eqb_spec r 10) as [->|N10]; [apply S; [reflexivity|lia]|].
  destruct (N.eqb_spec r 13) as [->|N13]; [apply S; [reflexivity|lia]|].
  destruct (N.eqb_spec r 9) as [->|N9]; [apply S; [reflexivity|lia]|].
  destruct (N.eqb_spec r 11) as [->|N11]; [apply S; [reflexivity|lia]|].
  clear S.
  destruct ((r <? 32) || (r =? 127)) eqn:E3.
  { erewrite unquote_loop_step with (c := BSL) (t := "x"%char :: hex_digits 2 r ++ t)
      (r := r) (m := false) (rem := t); [|reflexivity|discriminate|discriminate|].
    - rewrite orb_true_r, encode_rune_ascii by lia. reflexivity.
    - cbn [unquote_char app]. cbn [Ascii.eqb].
      rewrite read_hex_digits by (cbn; lia). reflexivity. }
  rewrite V. cbn [negb].
  assert (R3 : 128 <= r).
  { unfold is_print in E2. destruct (N.ltb_spec r 128); [|assumption]. lia. }
  destruct (N.ltb_spec r 65536) as [L|L].
  - erewrite unquote_loop_step with (c := BSL) (t := "u"%char :: hex_digits 4 r ++ t)
      (r := r) (m := true) (rem := t); [|reflexivity|discriminate|discriminate|].
    + destruct (N.ltb_spec r 128); [lia|]. reflexivity.
    + cbn [unquote_char app]. cbn [Ascii.eqb].
      rewrite read_hex_digits by (cbn; lia). cbn [andb]. 
      replace (0 * 16 ^ N.of_nat 4 + r) with r by lia. rewrite V. reflexivity.
  - pose proof (valid_rune_lt r V).
    erewrite unquote_loop_step with (c := BSL) (t := "U"%char :: hex_digits 8 r ++ t)
      (r := r) (m := true) (rem := t); [|reflexivity|discriminate|discriminate|].
    + destruct (N.ltb_spec r 128); [lia|]. reflexivity.
    + cbn [unquote_char app]. cbn [Ascii.eqb].
      rewrite read_hex_digits by (cbn; lia). cbn [andb].
      replace (0 * 16 ^ N.of_nat 8 + r) with r by lia. rewrite V. reflexivity.
Qed.

Lemma unquote_escape_byte f c t :
  unquote_loop (S f) DQ (BSL :: "x"%char :: hex_digits 2 (code c) ++ t) =
  match unquote_loop f DQ t with
  | Some (o, rest) => Some (c :: o, rest)
  | None => None
  end.
Proof.
  pose proof (code_lt c).
  erewrite unquote_loop_step with (c := BSL) (t := "x"%char :: hex_digits 2 (code c) ++ t)
    (r := code c) (m := false) (rem := t); [|reflexivity|discriminate|discriminate|].
  - rewrite orb_true_r, byte_of_code. reflexivity.
  - cbn [unquote_char app]. cbn [Ascii.eqb].
    rewrite read_hex_digits by (cbn; lia). cbn [andb]. reflexivity.
Qed.

Lemma quote_body_nil n : quote_body isp n [] = [].
Proof. destruct n; reflexivity. Qed.

Lemma escape_rune_nonempty r : escape_rune isp r <> [].
Proof.
  unfold escape_rune. repeat match goal with |- context[if ?b then _ else _] => destruct b end;
  try discriminate; apply encode_rune_nonempty.
Qed.

(** the loop inverts the body, provided it has enough fuel *)
Lemma unquote_quote_body : forall n s f rest, (length s <= n)%nat ->
  (length (quote_body isp n s) < f)%nat ->
  unquote_loop f DQ (quote_body isp n s ++ DQ :: rest) = Some (s, rest).
Proof.
  induction n as [|n IH]; intros s f rest Hn Hf.
  - destruct s; [|cbn in Hn; lia]. destruct f; [lia|]. reflexivity.
  - destruct s as [|c t]; [destruct f; [lia|]; reflexivity|].
    cbn [quote_body] in *. destruct (decode_rune (c :: t)) as [r w] eqn:D.
    destruct f as [|f]; [lia|].
    destruct (Nat.eqb w 1 && (r =? RuneError)) eqn:E.
    + cbn [app]. rewrite <- app_assoc. rewrite unquote_escape_byte.
      rewrite IH; [reflexivity|cbn in Hn; lia|].
      cbn [length] in Hf. rewrite app_length in Hf. lia.
    + destruct (decode_encode (c :: t) r w) as (V & H1 & H2); [discriminate|exact D|lia|].
      rewrite <- app_assoc. rewrite unquote_escape_rune by exact V.
      pose proof (encode_rune_nonempty r) as Hne.
      assert (Hw : (1 <= w)%nat). { destruct (encode_rune r); [congruence|]. cbn in H2. lia. }
      rewrite IH.
      * rewrite <- H1. reflexivity.
      * rewrite skipn_length. lia.
      * rewrite app_length in Hf. pose proof (escape_rune_nonempty r).
        destruct (escape_rune isp r); [congruence|]. cbn [length] in Hf. lia.
Qed.
End Quote.

(** ** the fast path agrees with the loop *)
Lemma unquote_loop_in f q s o rest : q <> SQ -> unquote_loop f q s = Some (o, rest) -> In q s.
Proof.
  intros Hq. revert s o rest. induction f as [|f IH]; intros s o rest H; [discriminate|].
  cbn [unquote_loop] in H. destruct s as [|c t]; [discriminate|].
  destruct (Ascii.eqb_spec c q) as [->|Hn]; [left; reflexivity|].
  destruct (unquote_char (c :: t) q) as [[[r m] rem]|] eqn:E; [|discriminate].
  destruct (Ascii.eqb c NL); [discriminate|].
  rewrite (eqb_false q SQ Hq) in H.
  destruct (unquote_loop f q rem) as [[o' rest']|] eqn:E'; [|discriminate].
  apply IH in E'.
  assert (Hs : exists p, c :: t = p ++ rem).
  { assert (RH : forall k acc u v u', read_hex k acc u = Some (v, u') -> exists p, u = p ++ u').
    { induction k as [|k IHk]; intros acc u v u' Hr; cbn in Hr.
      - injection Hr as _ ->. exists []. reflexivity.
      - destruct u as [|d u]; [discriminate|]. destruct (unhex d); [|discriminate].
        apply IHk in Hr as [p ->]. exists (d :: p). reflexivity. }
    unfold unquote_char in E.
    destruct (Ascii.eqb c q && _); [discriminate|].
    destruct (128 <=? code c).
    { destruct (decode_rune (c :: t)) as [r' w]. injection E as _ _ <-.
      exists (firstn w (c :: t)). symmetry. apply firstn_skipn. }
    destruct (negb (Ascii.eqb c BSL)).
    { injection E as _ _ <-. exists [c]. reflexivity. }
    destruct t as [|e u]; [discriminate|].
    repeat match type of E with
    | (if Ascii.eqb e ?x then Some (_, false, u) else _) = _ =>
        destruct (Ascii.eqb e x); [injection E as _ _ <-; exists [c; e]; reflexivity|]
    | (if Ascii.eqb e ?x then match read_hex ?k 0 u with _ => _ end else _) = _ =>
        destruct (Ascii.eqb e x);
        [destruct (read_hex k 0 u) as [[v u']|] eqn:RE; [|discriminate];
         try (destruct (valid_rune v); [|discriminate]);
         injection E as _ _ <-; apply RH in RE as [p ->]; exists (c :: e :: p); reflexivity|]
    end.
    destruct (oct e).
    { destruct u as [|o1 [|o2 u']]; try discriminate.
      destruct (oct o1), (oct o2); try discriminate.
      match type of E with (if ?b then _ else _) = _ => destruct b end; [discriminate|].
      injection E as _ _ <-. exists [c; e; o1; o2]. reflexivity. }
    destruct (Ascii.eqb e BSL); [injection E as _ _ <-; exists [c; e]; reflexivity|].
    destruct (Ascii.eqb e SQ || Ascii.eqb e DQ); [|discriminate].
    destruct (Ascii.eqb e q); [|discriminate].
    injection E as _ _ <-. exists [c; e]. reflexivity. }
  destruct Hs as [p Hs]. rewrite Hs. apply in_or_app. right; exact E'.
Qed.

Lemma valid_utf8_fuel_enough : forall n m s, (length s <= n)%nat -> (length s <= m)%nat ->
  valid_utf8_fuel n s = valid_utf8_fuel m s.
Proof.
  induction n as [|n IH]; intros m s Hn Hm.
  - destruct s; [|cbn in Hn; lia]. destruct m; reflexivity.
  - destruct s as [|c t]; [destruct m; reflexivity|]. destruct m as [|m]; [cbn in Hm; lia|].
    cbn [valid_utf8_fuel]. pose proof (decode_rune_width (c :: t)) as W.
    destruct (decode_rune (c :: t)) as [r w]. cbn [snd] in W.
    destruct W as [W1 W2]; [discriminate|].
    destruct ((r =? RuneError) && Nat.eqb w 1); [reflexivity|].
    apply IH; rewrite skipn_length; lia.
Qed.

Lemma unquote_loop_raw : forall n s f rest, (length s <= n)%nat -> (length s < f)%nat ->
  ~ In BSL s -> ~ In NL s -> ~ In DQ s -> valid_utf8_fuel n s = true ->
  unquote_loop f DQ (s ++ DQ :: rest) = Some (s, rest).
Proof.
  induction n as [|n IH]; intros s f rest Hn Hf H1 H2 H3 HV.
  - destruct s; [|cbn in Hn; lia]. destruct f; [cbn in Hf; lia|]. reflexivity.
  - destruct s as [|c t]; [destruct f; [cbn in Hf; lia|]; reflexivity|].
    cbn [valid_utf8_fuel] in HV. destruct (decode_rune (c :: t)) as [r w] eqn:D.
    destruct ((r =? RuneError) && Nat.eqb w 1) eqn:E; [discriminate|].
    destruct (decode_encode (c :: t) r w) as (V & Hs & Hw); [discriminate|exact D|lia|].
    destruct f as [|f]; [cbn in Hf; lia|].
    pose proof (encode_rune_nonempty r) as Hne.
    assert (Hw1 : (1 <= w)%nat). { destruct (encode_rune r); [congruence|]. cbn in Hw. lia. }
    assert (R : r <> 34 /\ r <> 92 /\ r <> 10).
    { assert (G : forall x, r = code x -> code x < 128 -> In x (c :: t)).
      { intros x -> L. rewrite Hs, encode_rune_ascii, byte_of_code by exact L. left; reflexivity. }
      repeat split; intros ->.
      - apply H3, (G DQ); [reflexivity|cbn; lia].
      - apply H1, (G BSL); [reflexivity|cbn; lia].
      - apply H2, (G NL); [reflexivity|cbn; lia]. }
    destruct (encode_rune_head r V) as (c' & u & E' & Hc1 & Hc2); [tauto|tauto|].
    assert (Hin : forall x, In x (skipn w (c :: t)) -> In x (c :: t)).
    { intros x Hx. rewrite <- (firstn_skipn w (c :: t)). apply in_or_app. right; exact Hx. }
    rewrite Hs, <- app_assoc.
    erewrite unquote_loop_step with (c := c') (t := u ++ skipn w (c :: t) ++ DQ :: rest);
      [|rewrite E'; reflexivity|exact Hc1|exact Hc2|apply unquote_char_raw; tauto].
    rewrite IH; [| | | | | |exact HV].
    + destruct (N.ltb_spec r 128) as [L|L].
      * cbn [orb]. rewrite encode_rune_ascii by exact L. reflexivity.
      * destruct (N.leb_spec 128 r); [reflexivity|lia].
    + rewrite skipn_length. lia.
    + rewrite skipn_length. cbn [length] in Hf |- *. lia.
    + intros Hx; apply H1, Hin, Hx.
    + intros Hx; apply H2, Hin, Hx.
    + intros Hx; apply H3, Hin, Hx.
Qed.

(** For double-quoted text, [unquote] is its loop. *)
Lemma unquote_dq t :
  unquote (DQ :: t) =
  match unquote_loop (S (length t)) DQ t with Some (o, []) => Some o | _ => None end.
Proof.
  unfold unquote. destruct (index_byte DQ t) as [e|] eqn:E.
  - change (Ascii.eqb DQ BQ) with false. change (Ascii.eqb DQ DQ || Ascii.eqb DQ SQ) with true.
    change (Ascii.eqb DQ DQ) with true. cbv iota beta.
    match goal with |- context[if ?b then _ else _] => destruct b eqn:F end; [|reflexivity].
    apply andb_true_iff in F as [F F3]. apply andb_true_iff in F as [F1 F2].
    apply negb_true_iff in F1, F2. apply contains_byte_false in F1, F2.
    apply index_byte_some in E as (E1 & E2 & E3).
    pattern t at 4. rewrite E1.
    rewrite (unquote_loop_raw (length (firstn e t))); auto.
    + rewrite firstn_length. lia.
  - apply index_byte_none in E.
    destruct (unquote_loop (S (length t)) DQ t) as [[o rest]|] eqn:L; [|reflexivity].
    apply unquote_loop_in in L; [contradiction|discriminate].
Qed.

Theorem unquote_quote isp s : unquote (quote isp s) = Some s.
Proof.
  unfold quote. rewrite unquote_dq.
  rewrite unquote_quote_body; [reflexivity|apply le_n|].
  rewrite app_length. cbn [length]. lia.
Qed.

(** Quoting writes a single line: no raw newline, carriage return or other
    control byte. *)
Lemma escape_rune_clean isp r c : valid_rune r = true -> In c (escape_rune isp r) -> 0x20 <= code c /\ code c <> 0x7F.
Proof.
  intros V. unfold escape_rune.
  assert (HX : forall k n, In c (hex_digits k n) -> 0x20 <= code c /\ code c <> 0x7F).
  { intros k n H. apply hex_digits_hexc in H. unfold is_hexc, in_range in H. lia. }
  destruct ((r =? code DQ) || (r =? code BSL)) eqn:E1.
  { assert (Hr : r = 34 \/ r = 92) by (cbn in E1; lia).
    intros [<-|[<-|[]]]; [cbn; lia|]. destruct Hr as [-> | ->]; cbn; lia. }
  destruct (is_print isp r) eqn:E2.
  { intros H. destruct (N.ltb_spec r 128) as [L|L].
    - rewrite encode_rune_ascii in H by exact L. destruct H as [<-|[]].
      rewrite code_byte_of by lia. unfold is_print in E2. destruct (N.ltb_spec r 128); lia.
    - pose proof (encode_rune_high r c L H). lia. }
  repeat match goal with
  | |- In _ (if ?b then _ else _) -> _ => destruct b
  end; intros H; cbn [In B list_ascii_of_string] in H;
  repeat (destruct H as [H|H]; [subst c; cbn; lia|]); try (destruct H; fail);
  eapply HX; exact H.
Qed.
Lemma quote_body_clean isp : forall n s c, In c (quote_body isp n s) -> 0x20 <= code c /\ code c <> 0x7F.
Proof.
  induction n as [|n IH]; intros s c H; [destruct H|].
  destruct s as [|x t]; [destruct H|]. cbn [quote_body] in H.
  destruct (decode_rune (x :: t)) as [r w] eqn:D.
  destruct (Nat.eqb w 1 && (r =? RuneError)) eqn:E.
  - destruct H as [<-|[<-|H]]; [cbn; lia|cbn; lia|].
    apply in_app_or in H as [H|H]; [|eapply IH; exact H].
    apply hex_digits_hexc in H. unfold is_hexc, in_range in H. lia.
  - destruct (decode_encode (x :: t) r w) as (V & _); [discriminate|exact D|lia|].
    apply in_app_or in H as [H|H]; [eapply escape_rune_clean; eassumption|eapply IH; exact H].
Qed.
Lemma quote_clean isp s c : In c (quote isp s) -> 0x20 <= code c /\ code c <> 0x7F.
Proof.
  unfold quote. intros [<-|H]; [cbn; lia|]. apply in_app_or in H as [H|[<-|[]]]; [|cbn; lia].
  eapply quote_body_clean; exact H.
Qed.

(** ** every inner quote is escaped *)
Lemma escaped_app a b : escaped a -> escaped b -> escaped (a ++ b).
Proof.
  intros Ha Hb. induction Ha; cbn [app]; [exact Hb|apply E_plain; assumption|apply E_pair; assumption].
Qed.
Lemma escaped_plain s : (forall c, In c s -> c <> DQ /\ c <> BSL) -> escaped s.
Proof.
  induction s as [|c t IH]; intros H; [constructor|].
  destruct (H c (or_introl eq_refl)). constructor; auto. apply IH. intros x Hx. apply H. right; exact Hx.
Qed.
Lemma hex_escaped k n : escaped (hex_digits k n).
Proof.
  apply escaped_plain. intros c H. apply hex_digits_hexc in H.
  split; intros ->; vm_compute in H; discriminate.
Qed.
Lemma escape_rune_escaped isp r : escaped (escape_rune isp r).
Proof.
  unfold escape_rune.
  destruct ((r =? code DQ) || (r =? code BSL)) eqn:E1; [apply E_pair, E_nil|].
  destruct (is_print isp r) eqn:E2.
  { apply escaped_plain. intros c H. destruct (N.ltb_spec r 128) as [L|L].
    - rewrite encode_rune_ascii in H by exact L. destruct H as [<-|[]].
      cbn in E1. split; intros E; apply (f_equal code) in E; rewrite code_byte_of in E by lia; cbn in E; lia.
    - pose proof (encode_rune_high r c L H). split; intros ->; cbn in *; lia. }
  repeat match goal with
  | |- escaped (if ?b then _ else _) => destruct b
  end; first [apply E_pair, hex_escaped|apply E_pair, E_nil].
Qed.
Lemma quote_body_escaped isp : forall n s, escaped (quote_body isp n s).
Proof.
  induction n as [|n IH]; intros s; [constructor|].
  destruct s as [|x t]; [constructor|]. cbn [quote_body].
  destruct (decode_rune (x :: t)) as [r w].
  destruct (Nat.eqb w 1 && (r =? RuneError)).
  - apply E_pair, escaped_app; [apply hex_escaped|apply IH].
  - apply escaped_app; [apply escape_rune_escaped|apply IH].
Qed.
Theorem quote_quoted isp s : quoted (quote isp s).
Proof.
  exists (quote_body isp (length s) s). split; [reflexivity|]. split; [apply quote_body_escaped|].
  intros c H. apply quote_clean in H. lia.
Qed.
