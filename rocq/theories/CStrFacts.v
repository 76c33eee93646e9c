(** Which texts are written as C strings. *)
From Coq Require Import Lia ZifyBool ZifyNat ZifyN.
From Verif Require Import GoStr GoStrFacts GoQuote GoQuoteFacts LitSpec LitFacts CStrSpec PoOutFacts.
Local Open Scope N_scope.

Section Facts.
Variable isp : N -> bool.
Local Definition body (s : bytes) : bytes := quote_body isp (length s) s.
Definition shown (r : N) : Prop := 0x20 <= r < 0x7F \/ 7 <= r <= 13 \/ (0x80 <= r /\ isp r = true).

Lemma body_fuel : forall n m s, (length s <= n)%nat -> (length s <= m)%nat -> quote_body isp n s = quote_body isp m s.
Proof.
  induction n as [|n IH]; intros m s Hn Hm; [destruct s; [rewrite !quote_body_nil; reflexivity|cbn in Hn; lia]|].
  destruct s as [|c t]; [rewrite !quote_body_nil; reflexivity|]. destruct m as [|m]; [cbn in Hm; lia|]. cbn [length] in Hn, Hm.
  cbn [quote_body]. destruct (decode_rune (c :: t)) as [r w] eqn:D. destruct (Nat.eqb w 1 && (r =? RuneError)) eqn:E.
  - do 3 f_equal. apply IH; lia.
  - destruct (decode_encode (c :: t) r w) as (V & H1 & H2); [discriminate|exact D|lia|].
    pose proof (encode_rune_nonempty r) as Hne. assert (Hw : (1 <= w)%nat) by (destruct (encode_rune r); [congruence|cbn in H2; lia]).
    f_equal. apply IH; rewrite skipn_length; cbn [length]; lia.
Qed.
Lemma body_view s : s = []
  \/ (exists r w t, s = w ++ t /\ utf8 r w /\ body s = escape_rune isp r ++ body t)
  \/ (exists c t, s = c :: t /\ nochar s /\ 0x80 <= code c /\ body s = BSL :: "x"%char :: hex_digits 2 (code c) ++ body t).
Proof.
  unfold body. destruct s as [|c t]; [left; reflexivity|right]. cbn [length quote_body]. destruct (decode_rune (c :: t)) as [r w] eqn:D.
  destruct (Nat.eqb w 1 && (r =? RuneError)) eqn:E.
  - right. exists c, t. split; [reflexivity|]. assert (w = 1%nat /\ r = RuneError) as [-> ->] by (destruct (Nat.eqb_spec w 1); [split; lia|discriminate]).
    assert (Hc : 0x80 <= code c).
    { destruct (N.lt_ge_cases (code c) 0x80) as [L|L]; [|exact L]. rewrite decode_rune_ascii in D by exact L. injection D as D.
      rewrite D in L. vm_compute in L. discriminate. }
    split; [apply nochar_decode; assumption|]. split; [exact Hc|reflexivity].
  - left. destruct (decode_encode (c :: t) r w) as (V & H1 & H2); [discriminate|exact D|lia|].
    exists r, (encode_rune r), (skipn w (c :: t)). split; [exact H1|]. split; [apply utf8_encode; auto|]. f_equal.
    apply body_fuel; [|lia]. rewrite skipn_length. pose proof (encode_rune_nonempty r) as Hne.
    assert (Hw : (1 <= w)%nat) by (destruct (encode_rune r); [congruence|cbn in H2; lia]). cbn [length]. lia.
Qed.
Lemma body_app r w t : utf8 r w -> body (w ++ t) = escape_rune isp r ++ body t.
Proof.
  intros U. unfold body. pose proof U as U'. apply utf8_encode in U' as [V Ew]. destruct (utf8_head r w U) as (c & u & Eu & _).
  assert (D : decode_rune (w ++ t) = (r, length w)) by (rewrite Ew; apply encode_decode, V).
  rewrite Eu in *. cbn [app length quote_body] in *. rewrite D.
  assert (Nb : Nat.eqb (S (length u)) 1 && (r =? RuneError) = false).
  { apply Bool.not_true_iff_false. intros T. apply andb_prop in T as [T1 T2]. apply N.eqb_eq in T2. subst r.
    vm_compute in Ew. injection Ew as _ ->. discriminate. }
  rewrite Nb. f_equal. cbn [skipn]. rewrite skipn_app, skipn_all, Nat.sub_diag. cbn [skipn app]. apply body_fuel; rewrite ?app_length; lia.
Qed.
Lemma body_bad c t : 0x80 <= code c -> nochar (c :: t) -> body (c :: t) = BSL :: "x"%char :: hex_digits 2 (code c) ++ body t.
Proof. intros H N. unfold body. cbn [length quote_body]. apply nochar_decode in N; [|exact H]. rewrite N. reflexivity. Qed.
(** how a character is written *)
Lemma escape_view r w : utf8 r w ->
  (exists e c, w = [c] /\ escape_rune isp r = [BSL; e] /\ In (e, code c) c_escapes /\ shown r)
  \/ (escape_rune isp r = w /\ shown r /\ forall c, In c w -> c <> DQ /\ c <> BSL /\ c <> NL)
  \/ (exists c, w = [c] /\ code c = r /\ escape_rune isp r = BSL :: "x"%char :: hex_digits 2 r /\ (r < 7 \/ 13 < r < 0x20 \/ r = 0x7F))
  \/ (exists u t, (u = "u"%char \/ u = "U"%char) /\ escape_rune isp r = BSL :: u :: t).
Proof.
  intros U. pose proof U as U'. apply utf8_encode in U' as [V Ew].
  assert (A : r < 0x80 -> exists c, w = [c] /\ code c = r).
  { intros L. destruct (utf8_head r w U) as (c & t0 & -> & H1 & _). destruct (H1 L) as [H2 ->]. eauto. }
  unfold escape_rune, shown. change (code DQ) with 34. change (code BSL) with 92.
  destruct ((r =? 34) || (r =? 92)) eqn:E0.
  { destruct A as (c & Hw & Hc); [lia|]. left. exists c, c. assert (Bc : byte_of r = c) by (rewrite <- Hc; apply byte_of_code).
    rewrite Bc. split; [exact Hw|]. split; [reflexivity|]. split; [|lia]. unfold c_escapes.
    assert (r = 34 \/ r = 92) as [Hr | Hr] by lia; rewrite Hr in *; subst c; cbn; tauto. }
  unfold is_print. destruct (r <? 128) eqn:E1.
  - destruct A as (c & Hw & Hc); [lia|]. destruct ((32 <=? r) && (r <? 127)) eqn:E2.
    + right; left. split; [symmetry; exact Ew|]. split; [lia|]. rewrite Hw. intros x [<-|[]].
      repeat split; intros ->; [change (code DQ) with 34 in Hc|change (code BSL) with 92 in Hc|change (code NL) with 10 in Hc]; subst r; discriminate.
    + assert (X : (r = 7 \/ r = 8 \/ r = 9 \/ r = 10 \/ r = 11 \/ r = 12 \/ r = 13) \/ (r < 7 \/ 13 < r < 0x20 \/ r = 0x7F)) by lia.
      destruct X as [X|X].
      * left. assert (Sh : 32 <= r < 127 \/ 7 <= r <= 13 \/ 128 <= r /\ isp r = true) by lia.
        destruct X as [R|[R|[R|[R|[R|[R|R]]]]]]; rewrite R in *; cbn [N.eqb Pos.eqb]; (eexists _, c; split; [exact Hw|]; split; [reflexivity|]; split; [rewrite Hc; cbn; tauto|exact Sh]).
      * right; right; left. exists c. split; [exact Hw|]. split; [exact Hc|]. split; [|exact X].
        replace (r =? 7) with false by lia. replace (r =? 8) with false by lia. replace (r =? 12) with false by lia. replace (r =? 10) with false by lia.
        replace (r =? 13) with false by lia. replace (r =? 9) with false by lia. replace (r =? 11) with false by lia.
        replace ((r <? 32) || (r =? 127)) with true by lia. reflexivity.
  - destruct (isp r) eqn:P.
    + right; left. split; [symmetry; exact Ew|]. split; [lia|]. intros c I. pose proof (utf8_high r w c U I ltac:(lia)) as G.
      repeat split; intros ->; vm_compute in G; apply G; reflexivity.
    + right; right; right.
      replace (r =? 7) with false by lia. replace (r =? 8) with false by lia. replace (r =? 12) with false by lia. replace (r =? 10) with false by lia.
      replace (r =? 13) with false by lia. replace (r =? 9) with false by lia. replace (r =? 11) with false by lia.
      replace ((r <? 32) || (r =? 127)) with false by lia.
      destruct (negb (valid_rune r)); [eauto|]. destruct (r <? 65536); eauto.
Qed.

(** reading a C string from its beginning *)
Lemma octn_head l v : octn l v -> exists x r a, l = x :: r /\ octd x a.
Proof. induction 1 as [c0 v0 O|l0 c0 v0 d0 O (x & r & a & -> & A) O']; [eauto 6|]. cbn [app]. eauto 6. Qed.
Lemma cstr_plain c s t : c <> BSL -> cstr (c :: s) t -> exists t', t = c :: t' /\ cstr s t'.
Proof.
  intros N H. inversion H as [|w x r u C K E1 E2]; subst. destruct C as [x r N1 N2 N3|e x r I|ds x r O _|ds x r Nd O _]; cbn [app] in E1; injection E1 as E1 E2; subst; try congruence.
  exists u. auto.
Qed.
Lemma escape_one e v v' : In (e, v) c_escapes -> In (e, v') c_escapes -> v = v'.
Proof.
  intros H H'. vm_compute in H, H'.
  repeat (destruct H as [H|H]; [injection H as <- <-; repeat (destruct H' as [H'|H']; [first [discriminate H' | injection H' as E; congruence]|]); destruct H'|]). destruct H.
Qed.
Lemma escape_char e v : In (e, v) c_escapes -> (forall a, ~ octd e a) /\ e <> "x"%char /\ e <> "u"%char /\ e <> "U"%char.
Proof.
  intros H. vm_compute in H.
  repeat (destruct H as [H|H]; [injection H as <- _; split; [intros a [L A]; match type of A with code ?x = _ => let k := eval vm_compute in (code x) in change (code x) with k in A end; lia|repeat split; discriminate]|]). destruct H.
Qed.
Lemma cstr_esc e c s t : In (e, code c) c_escapes -> cstr (BSL :: e :: s) t -> exists t', t = c :: t' /\ cstr s t'.
Proof.
  intros I H. inversion H as [|w x r u C K E1 E2]; subst. destruct C as [x r N1 N2 N3|e' x r I'|ds x r O _|ds x r Nd O _]; cbn [app] in E1; injection E1 as E1.
  - congruence.
  - subst. exists u. split; [|exact K]. f_equal. apply code_inj.
    exact (escape_one _ _ _ I' I).
  - destruct (octn_head _ _ O) as (y & r0 & a & -> & L & A). cbn [app] in E1. injection E1 as -> _. exfalso.
    exact (proj1 (escape_char _ _ I) a (conj L A)).
  - subst. exfalso. exact (proj1 (proj2 (escape_char _ _ I)) eq_refl).
Qed.
Lemma cstr_no_u u s t : u = "u"%char \/ u = "U"%char -> ~ cstr (BSL :: u :: s) t.
Proof.
  intros Hu H. inversion H as [|w x r v C K E1 E2]; subst. destruct C as [x r N1 N2 N3|e' x r I'|ds x r O _|ds x r Nd O _]; cbn [app] in E1; injection E1 as E1.
  - congruence.
  - subst. destruct (escape_char _ _ I') as (_ & _ & N1 & N2). destruct Hu; contradiction.
  - destruct (octn_head _ _ O) as (y & r0 & a & -> & L & A). cbn [app] in E1. injection E1 as -> _.
    destruct Hu as [-> | ->]; [change (code "u"%char) with 117 in A|change (code "U"%char) with 85 in A]; lia.
  - subst. destruct Hu; discriminate.
Qed.
Lemma cstr_hex s t : cstr (BSL :: "x"%char :: s) t -> exists ds c s' t', s = ds ++ s' /\ t = c :: t' /\ hexn ds (code c) /\ no_digit s' /\ cstr s' t'.
Proof.
  intros H. inversion H as [|w x r v C K E1 E2]; subst. destruct C as [x r N1 N2 N3|e' x r I'|ds x r O _|ds x r Nd O F]; cbn [app] in E1; injection E1 as E1.
  - congruence.
  - subst. destruct (escape_char _ _ I') as (_ & N1 & _). congruence.
  - destruct (octn_head _ _ O) as (y & r0 & a & -> & L & A). cbn [app] in E1. injection E1 as -> _. change (code "x"%char) with 120 in A. lia.
  - exists ds, x, r, v. subst. repeat split; assumption.
Qed.
Lemma hexn_all ds v : hexn ds v -> forall c, In c ds -> exists d, hexd c d.
Proof. induction 1 as [|ds c v d H IH D]; [intros x []|]. intros x I. apply in_app_or in I as [I|[<-|[]]]; [apply IH, I|exists d; exact D]. Qed.
Lemma hex_hexn k n : n < 16 ^ N.of_nat k -> hexn (hex_digits k n) n.
Proof.
  intros H. pose proof (read_hex_digits k 0 n [] H) as R. apply read_hex_inv in R as (ds & d & E & L & Hd & Ev).
  rewrite !app_nil_r in E. rewrite E. replace n with d by lia. exact Hd.
Qed.
Lemma hexd_ascii c d : hexd c d -> code c < 0x80 /\ 0x20 <= code c < 0x7F /\ code c <> 34 /\ code c <> 92.
Proof. destruct 1; lia. Qed.
Lemma body_digit c d t : hexd c d -> body (c :: t) = c :: body t.
Proof.
  intros H. destruct (hexd_ascii _ _ H) as (H1 & H2 & H3 & H4). assert (U : utf8 (code c) [c]) by (apply U1; [exact H1|reflexivity]).
  pose proof (body_app (code c) [c] t U) as X. cbn [app] in X. rewrite X. unfold escape_rune. change (code DQ) with 34. change (code BSL) with 92.
  replace ((code c =? 34) || (code c =? 92)) with false by lia. unfold is_print. replace (code c <? 128) with true by lia.
  replace ((32 <=? code c) && (code c <? 127)) with true by lia. apply utf8_encode in U as [_ <-]. reflexivity.
Qed.
Lemma body_head s x z d : body s = x :: z -> hexd x d -> exists t, s = x :: t.
Proof.
  intros E H. destruct (hexd_ascii _ _ H) as (H1 & H2 & H3 & H4). assert (Nx : x <> BSL) by (intros ->; apply H4; reflexivity).
  destruct (body_view s) as [->|[(r & w & t & -> & U & Eb)|(c & t & -> & _ & _ & Eb)]]; [discriminate| |rewrite Eb in E; injection E as E _; congruence].
  rewrite Eb in E. destruct (escape_view r w U) as [(e & c & _ & Ee & _)|[(Ee & _ & _)|[(c & _ & _ & Ee & _)|(u & v & _ & Ee)]]]; rewrite Ee in E;
    try (cbn [app] in E; injection E as E _; congruence).
  destruct (utf8_head r w U) as (c & u & -> & _). cbn [app] in *. injection E as -> _. eauto.
Qed.
Lemma body_eat ds : forall s z, (forall c, In c ds -> exists d, hexd c d) -> body s = ds ++ z -> exists t, s = ds ++ t /\ z = body t.
Proof.
  induction ds as [|c ds IH]; intros s z H E; [exists s; auto|].
  destruct (H c (or_introl eq_refl)) as [d D]. cbn [app] in E. destruct (body_head _ _ _ _ E D) as [t ->].
  rewrite (body_digit _ _ _ D) in E. injection E as E. destruct (IH t z (fun x I => H x (or_intror I)) E) as (t' & -> & ->). exists t'. auto.
Qed.
Lemma body_no_digit s : no_digit (body s) <-> no_digit s.
Proof.
  split; intros H x t v E D.
  - subst s. apply (H x (body t) v); [exact (body_digit _ _ _ D)|exact D].
  - destruct (body_head _ _ _ _ E D) as [t' ->]. exact (H x t' v eq_refl D).
Qed.
(** a hexadecimal escape eats the digits behind it *)
Lemma hex_eats n s t : cstr (BSL :: "x"%char :: hex_digits 2 n ++ body s) t ->
  exists c ds s' t', s = ds ++ s' /\ t = c :: t' /\ no_digit s' /\ cstr (body s') t'.
Proof.
  intros H. apply cstr_hex in H as (ds & c & z & t' & E & -> & Hx & N & C).
  assert (P : exists ds', ds = hex_digits 2 n ++ ds').
  { assert (Hd : forall x, In x (hex_digits 2 n) -> exists d, hexd x d).
    { intros x I. apply hex_digits_hexc in I. unfold is_hexc, in_range in I.
      destruct ((48 <=? code x) && (code x <=? 57)) eqn:E1; [exists (code x - 48); apply H_09; lia|exists (code x - 87); apply H_af; lia]. }
    revert Hd E. generalize (hex_digits 2 n). intros l. clear Hx. revert ds. induction l as [|x l IH]; intros ds Hd E; [exists ds; reflexivity|].
    destruct ds as [|y ds]; cbn [app] in E.
    - subst z. exfalso. destruct (Hd x (or_introl eq_refl)) as [d D]. exact (N x _ d eq_refl D).
    - injection E as <- E. destruct (IH ds (fun c I => Hd c (or_intror I)) E) as [ds' ->]. exists ds'. reflexivity. }
  destruct P as [ds' ->]. rewrite <- app_assoc in E. apply app_inv_head in E.
  destruct (body_eat ds' s z) as (s' & -> & ->); [|exact E|].
  - intros x I. apply (hexn_all _ _ Hx). apply in_or_app. right. exact I.
  - exists c, ds', s', t'. split; [reflexivity|]. split; [reflexivity|]. split; [apply body_no_digit, N|exact C].
Qed.
Lemma plain_row w : forall s t, (forall c, In c w -> c <> DQ /\ c <> BSL /\ c <> NL) -> cstr (w ++ s) t -> exists t', t = w ++ t' /\ cstr s t'.
Proof.
  induction w as [|c w IH]; intros s t H C; [exists t; auto|]. cbn [app] in C. apply cstr_plain in C as (t1 & -> & C); [|apply H; left; reflexivity].
  apply IH in C as (t2 & -> & C); [|intros x I; apply H; right; exact I]. exists t2. auto.
Qed.
Lemma cstr_short : forall n s t, (length s <= n)%nat -> cstr (body s) t -> (length t <= length s)%nat.
Proof.
  induction n as [|n IH]; intros s t L C.
  { destruct s; [|cbn in L; lia]. inversion C as [|w x r u Cc K E1 E2]; [lia|]. destruct Cc; discriminate. }
  destruct (body_view s) as [->|[(r & w & u & -> & U & Eb)|(c & u & -> & _ & _ & Eb)]].
  - inversion C as [|w x r u Cc K E1 E2]; [lia|]. destruct Cc; discriminate.
  - destruct (utf8_head r w U) as (c0 & w0 & Ew & _). rewrite Eb in C. rewrite app_length in *.
    destruct (escape_view r w U) as [(e & c & Hw & Ee & I & _)|[(Ee & _ & Hw)|[(c & Hw & _ & Ee & _)|(x & v & Hx & Ee)]]]; rewrite Ee in C.
    + apply (cstr_esc e c) in C as (t' & -> & C); [|exact I]. subst w. cbn [length] in *. apply IH in C; lia.
    + apply plain_row in C as (t' & -> & C); [|exact Hw]. rewrite app_length. apply IH in C; [lia|]. rewrite Ew in L. cbn [length] in L. lia.
    + cbn [app] in C. apply hex_eats in C as (c' & ds & s' & t' & -> & -> & _ & C). rewrite app_length in *. subst w. cbn [length] in *. apply IH in C; lia.
    + destruct (cstr_no_u x _ t Hx C).
  - rewrite Eb in C. apply hex_eats in C as (c' & ds & s' & t' & -> & -> & _ & C). cbn [length] in *. rewrite app_length in *. apply IH in C; lia.
Qed.
Lemma cstr_text : forall n s, (length s <= n)%nat -> cstr (body s) s -> c_text isp s.
Proof.
  induction n as [|n IH]; intros s L C; [destruct s; [constructor|cbn in L; lia]|].
  assert (H : forall m c u, cstr (BSL :: "x"%char :: hex_digits 2 m ++ body u) (c :: u) -> no_digit u /\ cstr (body u) u).
  { intros m c u K. apply hex_eats in K as (c' & ds & s' & t' & E & Et & N & K). injection Et as <- <-.
    pose proof (cstr_short (length s') s' _ (le_n _) K) as S'. rewrite E, app_length in S'. destruct ds; [|cbn [length] in S'; lia].
    cbn [app] in E. subst u. auto. }
  destruct (body_view s) as [->|[(r & w & u & -> & U & Eb)|(c & u & -> & N & _ & Eb)]]; [constructor| |].
  - destruct (utf8_head r w U) as (c0 & w0 & Ew & _). rewrite Eb in C.
    assert (Lu : (length u <= n)%nat) by (rewrite app_length, Ew in L; cbn [length] in L; lia).
    destruct (escape_view r w U) as [(e & c & Hw & Ee & I & Sh)|[(Ee & Sh & Hw)|[(c & Hw & Hc & Ee & Ct)|(x & v & Hx & Ee)]]]; rewrite Ee in C.
    + apply (cstr_esc e c) in C as (t' & E & C); [|exact I]. apply (T_char isp r w u U Sh). apply IH; [exact Lu|]. rewrite Hw in E. cbn [app] in E. injection E as E. subst t'. exact C.
    + apply plain_row in C as (t' & E & C); [|exact Hw]. apply app_inv_head in E. subst t'. apply (T_char isp r w u U Sh). apply IH; assumption.
    + rewrite Hw in C |- *. cbn [app] in *. destruct (H _ _ _ C) as [Nd K]. apply T_control; [rewrite Hc; exact Ct|exact Nd|]. apply IH; assumption.
    + destruct (cstr_no_u x _ _ Hx C).
  - rewrite Eb in C. destruct (H _ _ _ C) as [Nd K]. apply T_byte; [intros r x y Ux E; exact (N r x y Ux E)|exact Nd|]. apply IH; [cbn in L; lia|exact K].
Qed.
Lemma text_cstr s : c_text isp s -> cstr (body s) s.
Proof.
  assert (H : forall c u, no_digit u -> cstr (body u) u -> cstr (BSL :: "x"%char :: hex_digits 2 (code c) ++ body u) (c :: u)).
  { intros c u N C. change (BSL :: "x"%char :: hex_digits 2 (code c) ++ body u) with ((BSL :: "x"%char :: hex_digits 2 (code c)) ++ body u).
    apply CS_cons; [|exact C]. apply CC_hex.
    - intros E. pose proof (hex_digits_length 2 (code c)) as X. rewrite E in X. discriminate.
    - apply hex_hexn. pose proof (code_lt c). cbn. lia.
    - apply body_no_digit, N. }
  induction 1 as [|r w s U Sh T IH|c s Ct N T IH|c s Nc N T IH].
  - constructor.
  - rewrite (body_app r w s U). apply (escape_cstr isp r w); assumption.
  - assert (U : utf8 (code c) [c]) by (apply U1; [lia|reflexivity]). pose proof (body_app (code c) [c] s U) as X. cbn [app] in X. rewrite X.
    destruct (escape_view (code c) [c] U) as [(e & c' & [= <-] & _ & _ & Sh)|[(_ & Sh & _)|[(c' & _ & _ & Ee & _)|(x & v & Hx & Ee)]]].
    + destruct Sh as [Sh|[Sh|[Sh _]]]; lia.
    + destruct Sh as [Sh|[Sh|[Sh _]]]; lia.
    + rewrite Ee. apply H; assumption.
    + exfalso. unfold escape_rune in Ee. revert Ee. change (code DQ) with 34. change (code BSL) with 92. unfold is_print.
      replace ((code c =? 34) || (code c =? 92)) with false by lia. replace (code c <? 128) with true by lia.
      replace ((32 <=? code c) && (code c <? 127)) with false by lia.
      replace (code c =? 7) with false by lia. replace (code c =? 8) with false by lia. replace (code c =? 12) with false by lia. replace (code c =? 10) with false by lia.
      replace (code c =? 13) with false by lia. replace (code c =? 9) with false by lia. replace (code c =? 11) with false by lia.
      replace ((code c <? 32) || (code c =? 127)) with true by lia. intros [= E _]. destruct Hx; congruence.
  - assert (Hc : 0x80 <= code c).
    { destruct (N.lt_ge_cases (code c) 0x80) as [L|L]; [|exact L]. exfalso. apply (Nc (code c) [c] s); [apply U1; [exact L|reflexivity]|reflexivity]. }
    rewrite body_bad; [|exact Hc|exact Nc]. apply H; assumption.
Qed.
End Facts.
