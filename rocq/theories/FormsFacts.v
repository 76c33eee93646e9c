(** Plural-Forms values and header lines: the regular expressions of
    plural.go:19 and file.go:19 accept exactly what FileSpec says. *)
From Verif Require Import GoStr GoStrFacts GoMap GoMapFacts GoRegex GoRegexFacts PluralModel FileModel FileSpec.
From Coq Require Import Lia ZifyBool ZifyNat ZifyN.
Local Open Scope Z_scope.

Lemma re_space_iff c : re_space c = true <-> blank c.
Proof.
  unfold re_space, blank. cbn [In]. rewrite !orb_true_iff, !Ascii.eqb_eq. intuition congruence.
Qed.
Lemma re_space_false c : re_space c = false <-> ~ blank c.
Proof. rewrite <- re_space_iff. destruct (re_space c); intuition congruence. Qed.
Lemma blanks_forallb s : forallb re_space s = true <-> blanks s.
Proof.
  unfold blanks. rewrite forallb_forall. split; intros H c I; apply re_space_iff, H, I.
Qed.
Lemma dots_forallb s : forallb re_dot s = true <-> ~ In NL s.
Proof.
  rewrite forallb_forall. unfold re_dot. split.
  - intros H I. specialize (H _ I). rewrite Ascii.eqb_refl in H. discriminate.
  - intros H c I. destruct (Ascii.eqb_spec c NL) as [->|]; [contradiction|reflexivity].
Qed.
Lemma one_digit c : is_digit c = true -> exists d, 0 <= d <= 9 /\ dec_Z d = [c] /\ parse_int [c] = Some d.
Proof.
  intros H. destruct c as [[] [] [] [] [] [] [] []]; try discriminate H;
  (let v := eval vm_compute in (match parse_int [Ascii false false false false true true false false] with Some v => v | None => 0 end) in idtac);
  match goal with |- context [parse_int [?c]] =>
    let v := eval vm_compute in (match parse_int [c] with Some v => v | None => 0 end) in
    exists v; repeat split; try lia; vm_compute; reflexivity end.
Qed.
Lemma digit_one d : 0 <= d <= 9 -> exists c, dec_Z d = [c] /\ is_digit c = true /\ parse_int [c] = Some d.
Proof.
  intros H.
  assert (E : d = 0 \/ d = 1 \/ d = 2 \/ d = 3 \/ d = 4 \/ d = 5 \/ d = 6 \/ d = 7 \/ d = 8 \/ d = 9) by lia.
  destruct E as [-> | [-> | [-> | [-> | [-> | [-> | [-> | [-> | [-> | ->]]]]]]]]];
  match goal with |- context [dec_Z ?d] =>
    let l := eval vm_compute in (dec_Z d) in match l with [?c] => exists c end end;
  repeat split; vm_compute; reflexivity.
Qed.

Definition tail_rx : list item := [IStar true re_dot; sp_star] ++ lit ";" ++ [IEnd].
Lemma re_plurals_eq : re_plurals =
  sp_star :: lit "nplurals" ++ sp_star :: lit "=" ++ sp_star :: IOne is_digit :: sp_star
  :: lit ";" ++ sp_star :: lit "plural" ++ sp_star :: lit "=" ++ sp_star :: tail_rx.
Proof. reflexivity. Qed.

Lemma rx_end m u s : rx [IEnd] s = Some (m, u) -> s = [] /\ m = [[]] /\ u = [].
Proof. destruct s; cbn; [intros [= <- <-]; auto|discriminate]. Qed.
(** the closing part: .* \s* ; $ *)
Lemma end_inv s m u : rx (lit ";" ++ [IEnd]) s = Some (m, u) -> s = B ";" /\ m = [B ";"; []] /\ u = [].
Proof.
  intros H. apply rx_lit_inv in H as (t & m' & -> & -> & H). apply rx_end in H as (-> & -> & ->). auto.
Qed.
Lemma end_some_inv s : rx (lit ";" ++ [IEnd]) s <> None -> s = B ";".
Proof.
  destruct (rx _ s) as [[m u]|] eqn:E; [|congruence]. intros _. apply end_inv in E as (-> & _). reflexivity.
Qed.
Lemma tail_rest_inv s : rx (sp_star :: lit ";" ++ [IEnd]) s <> None -> exists b, blanks b /\ s = b ++ B ";".
Proof.
  destruct (rx _ s) as [[m u]|] eqn:E; [|congruence]. intros _.
  apply rx_star_inv in E as (w & t & m' & -> & F & -> & R & _). apply end_inv in R as (-> & _).
  exists w. split; [apply blanks_forallb, F|reflexivity].
Qed.
Lemma tail_rest b : blanks b -> rx (sp_star :: lit ";" ++ [IEnd]) (b ++ B ";") = Some ([b; B ";"; []], []).
Proof.
  intros H. apply (rx_star_stop re_space (lit ";" ++ [IEnd]) b (B ";") [B ";"; []] []).
  - apply blanks_forallb, H.
  - intros c x [= <- <-]. reflexivity.
  - reflexivity.
Qed.
Lemma blank_nodot b : blanks b -> ends_line b -> forall w t', b ++ B ";" = w ++ t' -> w <> [] ->
  forallb re_dot w = true -> rx (sp_star :: lit ";" ++ [IEnd]) t' = None.
Proof.
  intros Hb [-> | [b' ->]] w t' E N F.
  - cbn in E. destruct w as [|c w]; [congruence|]. cbn in E. injection E as <- E.
    symmetry in E. apply app_eq_nil in E as [-> ->]. reflexivity.
  - destruct w as [|c w]; [congruence|]. cbn in E. injection E as <- E. discriminate F.
Qed.
Lemma tail_match exp b : ~ In NL exp -> blanks b -> ends_line b ->
  rx tail_rx (exp ++ b ++ B ";") = Some ([exp; b; B ";"; []], []).
Proof.
  intros Hn Hb He. unfold tail_rx. change ([IStar true re_dot; sp_star] ++ lit ";" ++ [IEnd]) with (IStar true re_dot :: sp_star :: lit ";" ++ [IEnd]).
  rewrite rx_star.
  rewrite (star_greedy_eq re_dot (sp_star :: lit ";" ++ [IEnd]) (exp ++ b ++ B ";") [] exp (b ++ B ";") [b; B ";"; []] []); auto.
  - apply dots_forallb, Hn.
  - apply tail_rest, Hb.
  - intros w' t' E F L. destruct (longer_prefix _ _ _ _ E L) as (c & x & -> & E2).
    apply (blank_nodot b Hb He (c :: x) t'); [exact E2|discriminate|].
    rewrite forallb_app in F. apply andb_prop in F as [_ F]. exact F.
Qed.
Lemma tail_inv s m u : rx tail_rx s = Some (m, u) ->
  exists exp b, s = exp ++ b ++ B ";" /\ ~ In NL exp /\ blanks b /\ ends_line b /\ m = [exp; b; B ";"; []].
Proof.
  intros H. change tail_rx with (IStar true re_dot :: sp_star :: lit ";" ++ [IEnd]) in H.
  pose proof H as H0. apply rx_star_inv in H as (w & t & m' & -> & F & -> & R & L).
  destruct (tail_rest_inv t) as (b & Hb & ->); [congruence|].
  pose proof (tail_rest b Hb) as R'. rewrite R in R'. injection R' as -> ->.
  exists w, b. repeat split; auto; [apply dots_forallb, F|].
  destruct b as [|c b]; [left; reflexivity|]. destruct (Ascii.eqb_spec c NL) as [->|N]; [right; eauto|].
  exfalso. assert (Hb' : blanks b) by (intros c' I; apply Hb; right; exact I).
  specialize (L (w ++ [c]) (b ++ B ";")). rewrite (tail_rest b Hb') in L. discriminate L.
  - rewrite <- !app_assoc. reflexivity.
  - rewrite forallb_app, F. cbn. unfold re_dot. destruct (Ascii.eqb_spec c NL); [congruence|reflexivity].
  - rewrite app_length. cbn. lia.
Qed.

Ltac nonblank := intros ? ? H0; cbn in H0; first [discriminate H0 | injection H0 as <- <-; reflexivity].
Lemma rx_match v d exp : forms_value v d exp ->
  exists m u, rx re_plurals v = Some (m, u) /\ parse_int (grp_n m) = Some d /\ grp_exp m = exp.
Proof.
  intros (b1 & b2 & b3 & b4 & b5 & b6 & b7 & b8 & -> & Hd & Hb & Hn & Hc & He & Hl).
  destruct (digit_one d Hd) as (c & E & Dg & P). rewrite E. clear E.
  assert (F : forall b, In b [b1; b2; b3; b4; b5; b6; b7; b8] -> forallb re_space b = true)
    by (intros b I; apply blanks_forallb, Hb, I).
  pose proof (tail_match exp b8 Hn (Hb b8 ltac:(cbn; tauto)) Hl) as T.
  assert (T7 : rx (sp_star :: tail_rx) (b7 ++ exp ++ b8 ++ B ";") = Some (b7 :: [exp; b8; B ";"; []], [])).
  { apply rx_star_stop; [apply F; cbn; tauto| |exact T].
    intros c0 x H. destruct exp as [|a exp]; cbn in H.
    - rewrite (He eq_refl) in H. cbn in H. injection H as <- <-. reflexivity.
    - injection H as <- _. apply re_space_false. eapply Hc. reflexivity. }
  apply (rx_lit (B "=")) in T7. apply (rx_star_stop re_space _ b6) in T7; [|apply F; cbn; tauto|nonblank].
  apply (rx_lit (B "plural")) in T7. apply (rx_star_stop re_space _ b5) in T7; [|apply F; cbn; tauto|nonblank].
  apply (rx_lit (B ";")) in T7. apply (rx_star_stop re_space _ b4) in T7; [|apply F; cbn; tauto|nonblank].
  apply (rx_one is_digit _ c) in T7; [|exact Dg].
  apply (rx_star_stop re_space _ b3) in T7; [|apply F; cbn; tauto|].
  2:{ intros c0 x H. injection H as <- <-. clear -Dg. destruct c as [[] [] [] [] [] [] [] []]; try discriminate Dg; reflexivity. }
  apply (rx_lit (B "=")) in T7. apply (rx_star_stop re_space _ b2) in T7; [|apply F; cbn; tauto|nonblank].
  apply (rx_lit (B "nplurals")) in T7. apply (rx_star_stop re_space _ b1) in T7; [|apply F; cbn; tauto|nonblank].
  eexists. eexists. split; [rewrite re_plurals_eq; exact T7|]. split; [exact P|reflexivity].
Qed.
Lemma rx_match_inv v m u : rx re_plurals v = Some (m, u) ->
  exists d exp, forms_value v d exp /\ parse_int (grp_n m) = Some d /\ grp_exp m = exp.
Proof.
  rewrite re_plurals_eq. intros H.
  apply rx_star_inv in H as (b1 & t & m1 & -> & F1 & -> & H & _).
  apply rx_lit_inv in H as (t' & m2 & -> & -> & H).
  apply rx_star_inv in H as (b2 & t & m3 & -> & F2 & -> & H & _).
  apply rx_lit_inv in H as (t' & m4 & -> & -> & H).
  apply rx_star_inv in H as (b3 & t & m5 & -> & F3 & -> & H & _).
  apply rx_one_inv in H as (c & t' & m6 & -> & Dg & -> & H).
  apply rx_star_inv in H as (b4 & t & m7 & -> & F4 & -> & H & _).
  apply rx_lit_inv in H as (t'' & m8 & -> & -> & H).
  apply rx_star_inv in H as (b5 & t & m9 & -> & F5 & -> & H & _).
  apply rx_lit_inv in H as (t'' & m10 & -> & -> & H).
  apply rx_star_inv in H as (b6 & t & m11 & -> & F6 & -> & H & _).
  apply rx_lit_inv in H as (t'' & m12 & -> & -> & H).
  apply rx_star_inv in H as (b7 & t & m13 & -> & F7 & -> & H & L).
  apply tail_inv in H as (exp & b8 & -> & Hn & Hb & He & ->).
  destruct (one_digit c Dg) as (d & Hd & Ed & Pd).
  exists d, exp. split; [|split; [exact Pd|reflexivity]].
  exists b1, b2, b3, b4, b5, b6, b7, b8. rewrite Ed. split; [reflexivity|]. split; [exact Hd|].
  apply blanks_forallb in F1, F2, F3, F4, F5, F6, F7.
  split; [intros b I; cbn in I; intuition (subst; assumption)|]. split; [exact Hn|].
  assert (Longer : forall c x, exp ++ b8 ++ B ";" = c :: x -> blank c -> rx tail_rx x = None).
  { intros c0 x E Bc. apply (L (b7 ++ [c0]) x).
    - rewrite E, <- app_assoc. reflexivity.
    - rewrite forallb_app. rewrite (proj2 (blanks_forallb b7) F7). cbn. rewrite (proj2 (re_space_iff c0) Bc). reflexivity.
    - rewrite app_length. cbn. lia. }
  split; [|split; [|exact He]].
  - intros c0 t -> Bc. specialize (Longer c0 (t ++ b8 ++ B ";") eq_refl Bc).
    rewrite tail_match in Longer; try assumption; [discriminate|]. intros I. apply Hn. right. exact I.
  - intros ->. destruct b8 as [|c0 b8]; [reflexivity|exfalso].
    assert (Bc : blank c0) by (apply Hb; left; reflexivity).
    specialize (Longer c0 (b8 ++ B ";") eq_refl Bc).
    assert (Hb8 : blanks b8) by (intros c' I; apply Hb; right; exact I).
    (* the text after c0 is blanks and a semicolon: the tail matches *)
    assert (N : rx tail_rx (b8 ++ B ";") <> None); [|contradiction].
    change tail_rx with (IStar true re_dot :: sp_star :: lit ";" ++ [IEnd]).
    apply (rx_star_some true re_dot _ [] (b8 ++ B ";")); [reflexivity|]. rewrite (tail_rest b8 Hb8). discriminate.
Qed.

Theorem parse_plural_rule v d exp : forms_value v d exp -> parse_plural v = {| p_total := d; p_expr := Some exp |}.
Proof.
  intros H. destruct (rx_match v d exp H) as (m & u & R & P & E).
  unfold parse_plural, find_all. rewrite R.
  destruct v as [|c v]; [vm_compute in R; discriminate R|]. rewrite P, E. reflexivity.
Qed.
Theorem parse_plural_none v : (forall d exp, ~ forms_value v d exp) -> parse_plural v = {| p_total := 0; p_expr := None |}.
Proof.
  intros H. unfold parse_plural, find_all. destruct v as [|c v]; [reflexivity|].
  destruct (rx re_plurals (c :: v)) as [[m u]|] eqn:R; [|reflexivity].
  apply rx_match_inv in R as (d & exp & F & _). destruct (H d exp F).
Qed.
Theorem parse_plural_cases v :
  (exists d exp, forms_value v d exp /\ parse_plural v = {| p_total := d; p_expr := Some exp |})
  \/ ((forall d exp, ~ forms_value v d exp) /\ parse_plural v = {| p_total := 0; p_expr := None |}).
Proof.
  destruct (rx re_plurals v) as [[m u]|] eqn:R.
  - left. apply rx_match_inv in R as (d & exp & F & _). exists d, exp. split; [exact F|apply parse_plural_rule, F].
  - right. assert (N : forall d exp, ~ forms_value v d exp).
    { intros d exp F. destruct (rx_match v d exp F) as (m & u & R' & _). congruence. }
    split; [exact N|apply parse_plural_none, N].
Qed.
Lemma forms_value_fun v d e d' e' : forms_value v d e -> forms_value v d' e' -> d = d' /\ e = e'.
Proof.
  intros H H'. apply parse_plural_rule in H, H'. rewrite H in H'. injection H' as -> ->. auto.
Qed.

(** ** Header lines *)
Definition colon_rx : list item := [IOne (Ascii.eqb ":"); IOne (Ascii.eqb " "); IStar true re_dot].
Lemma dots_all b : ~ In NL b -> rx [IStar true re_dot] b = Some ([b], []).
Proof.
  intros H. pose proof (rx_star_stop re_dot [] b [] [] []) as R. rewrite app_nil_r in R. apply R; auto.
  - apply dots_forallb, H.
  - discriminate.
Qed.
Lemma colon_match b : ~ In NL b -> rx colon_rx (":"%char :: " "%char :: b) = Some ([B ":"; B " "; b], []).
Proof.
  intros H. apply rx_one; [reflexivity|]. apply rx_one; [reflexivity|]. apply dots_all, H.
Qed.
Lemma colon_inv s m u : rx colon_rx s = Some (m, u) -> exists b, s = ":"%char :: " "%char :: b.
Proof.
  intros H. apply rx_one_inv in H as (c & t & m' & -> & P & -> & H). apply rx_one_inv in H as (c' & t' & m'' & -> & P' & -> & H).
  apply Ascii.eqb_eq in P as <-. apply Ascii.eqb_eq in P' as <-. eauto.
Qed.
Lemma cut_some l a b : cut l = Some (a, b) ->
  l = a ++ ":"%char :: " "%char :: b /\ forall x y, l = x ++ ":"%char :: " "%char :: y -> (length a <= length x)%nat.
Proof.
  revert a b. induction l as [|c t IH]; intros a b; cbn [cut]; [discriminate|].
  destruct (Ascii.eqb c ":" && has_prefix (B " ") t) eqn:E.
  - apply andb_prop in E as [E1 E2]. apply Ascii.eqb_eq in E1 as ->.
    apply has_prefix_iff in E2 as [t' ->].
    intros [= <- <-]. split; [reflexivity|cbn; lia].
  - destruct (cut t) as [[a' b']|] eqn:C; [|discriminate]. intros [= <- <-].
    destruct (IH _ _ eq_refl) as [H1 H2]. split; [cbn; rewrite <- H1; reflexivity|].
    intros [|z x] y Hx; cbn in Hx.
    + injection Hx as -> ->. discriminate E.
    + injection Hx as <- Hx. apply H2 in Hx. cbn. lia.
Qed.
Lemma cut_none l : cut l = None -> forall x y, l <> x ++ ":"%char :: " "%char :: y.
Proof.
  induction l as [|c t IH]; cbn [cut].
  - intros _ x y H. destruct x; discriminate H.
  - destruct (Ascii.eqb c ":" && has_prefix (B " ") t) eqn:E; [discriminate|].
    destruct (cut t) as [[a' b']|] eqn:E'; [discriminate|]. intros _ [|z x] y H; cbn in H.
    + injection H as -> ->. discriminate E.
    + injection H as <- H. exact (IH eq_refl _ _ H).
Qed.
Lemma re_header_cut l : ~ In NL l ->
  rx re_header l = match cut l with Some (a, b) => Some ([a; B ":"; B " "; b], []) | None => None end.
Proof.
  intros Hn. change re_header with (IStar false re_dot :: colon_rx). rewrite rx_star.
  destruct (star_body false re_dot colon_rx [] l) as [[m u]|] eqn:E.
  - destruct (lazy_shortest _ _ _ _ _ _ E) as (w & t & m' & -> & F & -> & R & L).
    destruct (colon_inv _ _ _ R) as (b & ->).
    assert (Hb : ~ In NL b) by (intros I; apply Hn, in_or_app; right; right; right; exact I).
    rewrite (colon_match b Hb) in R. injection R as <- <-. cbn [rev app].
    destruct (cut (w ++ ":"%char :: " "%char :: b)) as [[a b']|] eqn:C.
    + destruct (cut_some _ _ _ C) as [E1 E2].
      assert (length a = length w).
      { specialize (E2 w b eq_refl). destruct (Nat.eq_dec (length a) (length w)); [assumption|].
        assert (H : (length a < length w)%nat) by lia. specialize (L _ _ E1 H).
        rewrite colon_match in L; [discriminate|].
        intros I. apply Hn. rewrite E1. apply in_or_app; right; right; right; exact I. }
      assert (w = a /\ b = b') as [-> ->]; [|reflexivity].
      { clear -E1 H. revert a H E1. induction w as [|x w IH]; intros [|y a]; cbn; try discriminate.
        - intros _ [= ->]. auto.
        - intros [= H] [= -> E]. destruct (IH _ H E) as [-> ->]. auto. }
    + exfalso. exact (cut_none _ C w b eq_refl).
  - destruct (cut l) as [[a b]|] eqn:C; [|reflexivity]. exfalso.
    destruct (cut_some _ _ _ C) as [E1 _].
    refine (star_complete false re_dot colon_rx l [] a _ E1 _ _ E).
    + apply dots_forallb. intros I. apply Hn. rewrite E1. apply in_or_app. auto.
    + rewrite colon_match; [discriminate|]. intros I. apply Hn. rewrite E1. apply in_or_app; right; right; right; exact I.
Qed.
Lemma cut_tail l c : cut l = None -> l = c :: tl l -> cut (tl l) = None.
Proof.
  destruct l as [|x t]; [discriminate|]. cbn [cut tl]. intros H _.
  destruct (Ascii.eqb x ":" && has_prefix (B " ") t); [discriminate|]. destruct (cut t) as [[? ?]|]; congruence.
Qed.
Lemma find_none fuel l : ~ In NL l -> cut l = None -> find_all_from fuel re_header l = [].
Proof.
  revert l. induction fuel as [|n IH]; intros l Hn C; cbn [find_all_from]; [reflexivity|].
  rewrite re_header_cut, C by exact Hn. destruct l as [|c t]; [reflexivity|].
  apply IH; [intros I; apply Hn; right; exact I|]. apply (cut_tail (c :: t) c C eq_refl).
Qed.
Lemma find_header l : ~ In NL l ->
  find_all false re_header l = match cut l with Some (a, b) => [[a; B ":"; B " "; b]] | None => [] end.
Proof.
  intros Hn. unfold find_all. destruct (cut l) as [[a b]|] eqn:C.
  - cbn [find_all_from]. rewrite re_header_cut, C by exact Hn.
    destruct (cut_some _ _ _ C) as [E _].
    destruct (Nat.ltb_spec (length (@nil ascii)) (length l)) as [_|H].
    + rewrite find_none; [reflexivity|intros []|reflexivity].
    + reflexivity.
  - apply find_none; assumption.
Qed.

(** headers parsed from a text: first line wins *)
Lemma header_line_get k l h : ~ In NL l ->
  mget k (header_line l h) =
  match mget k h with
  | Some v => Some v
  | None => match cut l with Some (a, b) => if beq (trim_space a) k then Some (trim_space b) else None | None => None end
  end.
Proof.
  intros Hn. unfold header_line. destruct l as [|c t]; [cbn; destruct (mget k h); reflexivity|].
  rewrite (find_header (c :: t) Hn). destruct (cut (c :: t)) as [[a b]|]; [|destruct (mget k h); reflexivity].
  cbn [nth]. destruct (mget (trim_space a) h) as [v'|] eqn:E.
  - destruct (mget k h) as [v|] eqn:E'; [reflexivity|]. destruct (beq_spec (trim_space a) k) as [<-|N]; [congruence|reflexivity].
  - destruct (beq_spec (trim_space a) k) as [<-|N].
    + rewrite E, mget_put_same. reflexivity.
    + rewrite mget_put_other by congruence. destruct (mget k h); reflexivity.
Qed.
Lemma parse_lines_get k ls : forall h, (forall l, In l ls -> ~ In NL l) ->
  mget k (fold_left (fun h kv => header_line kv h) ls h) =
  match mget k h with Some v => Some v | None => first_line k ls end.
Proof.
  induction ls as [|l r IH]; intros h Hn; cbn [fold_left first_line]; [destruct (mget k h); reflexivity|].
  rewrite IH by (intros l' I; apply Hn; right; exact I).
  rewrite header_line_get by (apply Hn; left; reflexivity).
  destruct (mget k h); [reflexivity|]. destruct (cut l) as [[a b]|]; [|reflexivity].
  destruct (beq (trim_space a) k); reflexivity.
Qed.
Theorem parse_headers_get k text : mget k (parse_headers text) = header_value text k.
Proof.
  unfold parse_headers, header_value. rewrite parse_lines_get; [reflexivity|].
  intros l I. exact (split_byte_pieces NL text l I).
Qed.
