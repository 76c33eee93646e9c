(** The keyword specifications of xtemplate: XtModel.parse_keywords against XtSpec.spells. *)
From Coq Require Import Lia ZifyBool ZifyNat ZifyN.
From Verif Require Import GoStr GoStrFacts FileModel BlankSpec BlankFacts XtModel XtSpec.
Local Open Scope Z_scope.

(** ** Numbers *)
Lemma digits_val_decimal ds : forall acc v, digits_val acc ds = Some v ->
  (forall c, In c ds -> (48 <= code c <= 57)%N)
  /\ Z.of_N v = fold_left (fun v c => 10 * v + (Z.of_N (code c) - 48)) ds (Z.of_N acc).
Proof.
  induction ds as [|c t IH]; intros acc v H; cbn [digits_val fold_left] in *.
  - injection H as <-. split; [intros c []|reflexivity].
  - destruct (is_digit c) eqn:D; [|discriminate].
    unfold is_digit, in_range in D. apply IH in H as [H1 H2]. split.
    + intros x [<- | Hx]; [lia|exact (H1 x Hx)].
    + rewrite H2. f_equal. lia.
Qed.
Lemma digits_val_of ds acc : (forall c, In c ds -> (48 <= code c <= 57)%N) -> exists v, digits_val acc ds = Some v.
Proof.
  intros H. apply digits_val_some, forallb_forall. intros c Hc. specialize (H c Hc). unfold is_digit, in_range. lia.
Qed.
Lemma parse_int_iff s z : parse_int s = Some z <-> numeral s z.
Proof.
  unfold parse_int, numeral, decimal. split.
  - destruct s as [|c t]; [discriminate|]. cbv zeta.
    destruct (Ascii.eqb_spec c "-"%char) as [->|Hm]; cbn [orb].
    + destruct t as [|d t]; [discriminate|]. destruct (digits_val 0%N (d :: t)) as [v|] eqn:V; [|discriminate].
      destruct (in_int64 (- Z.of_N v)) eqn:R; [|discriminate]. intros E; injection E as <-.
      apply digits_val_decimal in V as [V1 V2]. exists (d :: t). split; [discriminate|]. split; [exact V1|].
      split; [right; right; split; [reflexivity|rewrite V2; reflexivity]|].
      unfold in_int64, int64_min, int64_max in R. lia.
    + destruct (Ascii.eqb_spec c "+"%char) as [->|Hp].
      * destruct t as [|d t]; [discriminate|]. destruct (digits_val 0%N (d :: t)) as [v|] eqn:V; [|discriminate].
        destruct (in_int64 (Z.of_N v)) eqn:R; [|discriminate]. intros E; injection E as <-.
        apply digits_val_decimal in V as [V1 V2]. exists (d :: t). split; [discriminate|]. split; [exact V1|].
        split; [right; left; split; [reflexivity|rewrite V2; reflexivity]|].
        unfold in_int64, int64_min, int64_max in R. lia.
      * destruct (digits_val 0%N (c :: t)) as [v|] eqn:V; [|discriminate].
        destruct (in_int64 (Z.of_N v)) eqn:R; [|discriminate]. intros E; injection E as <-.
        apply digits_val_decimal in V as [V1 V2]. exists (c :: t). split; [discriminate|]. split; [exact V1|].
        split; [left; split; [reflexivity|rewrite V2; reflexivity]|].
        unfold in_int64, int64_min, int64_max in R. lia.
  - intros (ds & Hne & Hd & Hs & Hr).
    destruct (digits_val_of ds 0%N Hd) as (v & V). pose proof (proj2 (digits_val_decimal ds _ _ V)) as E.
    change (Z.of_N 0) with 0 in E. rewrite <- E in Hs.
    destruct ds as [|d t]; [congruence|].
    assert (Hd0 : (48 <= code d <= 57)%N) by (apply Hd; left; reflexivity).
    destruct Hs as [[-> ->]|[[-> ->]|[-> ->]]]; cbv zeta.
    + replace (Ascii.eqb d "-"%char) with false.
      2:{ destruct (Ascii.eqb_spec d "-"%char) as [->|]; [|reflexivity]. change (code "-"%char) with 45%N in Hd0. lia. }
      replace (Ascii.eqb d "+"%char) with false.
      2:{ destruct (Ascii.eqb_spec d "+"%char) as [->|]; [|reflexivity]. change (code "+"%char) with 43%N in Hd0. lia. }
      cbn [orb]. rewrite V. unfold in_int64, int64_min, int64_max.
      replace ((- 2 ^ 63 <=? Z.of_N v) && (Z.of_N v <=? 2 ^ 63 - 1)) with true by lia. reflexivity.
    + cbn [B app list_ascii_of_string]. cbn [Ascii.eqb Bool.eqb orb]. rewrite V. unfold in_int64, int64_min, int64_max.
      replace ((- 2 ^ 63 <=? Z.of_N v) && (Z.of_N v <=? 2 ^ 63 - 1)) with true by lia. reflexivity.
    + cbn [B app list_ascii_of_string]. cbn [Ascii.eqb Bool.eqb orb]. rewrite V. unfold in_int64, int64_min, int64_max.
      replace ((- 2 ^ 63 <=? - Z.of_N v) && (- Z.of_N v <=? 2 ^ 63 - 1)) with true by lia. reflexivity.
Qed.
(** the bytes of a number *)
Lemma numeral_bytes s z c : numeral s z -> In c s -> (48 <= code c <= 57)%N \/ c = "+"%char \/ c = "-"%char.
Proof.
  intros (ds & _ & Hd & Hs & _) Hc.
  destruct Hs as [[-> _]|[[-> _]|[-> _]]]; [left; auto| |]; destruct Hc as [<-|Hc]; auto.
Qed.

(** ** White space around parts *)
Lemma blanks_no c b : (code c < 128)%N /\ is_space (code c) = false -> blanks b -> ~ In c b.
Proof.
  intros [L N] H. induction H as [|w s (r & R & ->) _ IH]; [intros []|].
  rewrite in_app_iff. intros [I|I]; [|auto].
  destruct (N.lt_ge_cases r 0x80) as [Lr|Lr].
  - rewrite (encode_rune_ascii r Lr) in I. destruct I as [<-|[]]. rewrite code_byte_of in N by lia. congruence.
  - pose proof (encode_rune_high r c Lr I). lia.
Qed.
Lemma trim_around a s b : blanks a -> blanks b -> trim_space (a ++ s ++ b) = trim_space s.
Proof.
  intros A Bb. apply trim_trims. destruct (trims_trim s) as (a' & b' & E & Ha & Hb & H1 & H2).
  exists (a ++ a'), (b' ++ b). split; [rewrite E at 1; rewrite <- !app_assoc; reflexivity|].
  split; [apply blanks_app; assumption|]. split; [apply blanks_app; assumption|]. split; assumption.
Qed.
Lemma trim_left_around a s : blanks a -> trim_space (a ++ s) = trim_space s.
Proof. intros A. pose proof (trim_around a s [] A BL_nil) as H. rewrite app_nil_r in H. exact H. Qed.
Lemma trim_right_around s b : blanks b -> trim_space (s ++ b) = trim_space s.
Proof. intros A. exact (trim_around [] s b BL_nil A). Qed.
Lemma in_split (c : ascii) s : In c s -> exists p q, s = p ++ c :: q /\ ~ In c p.
Proof.
  induction s as [|d s IH]; [intros []|]. intros H.
  destruct (Ascii.ascii_dec d c) as [->|N].
  - exists [], s. split; [reflexivity|intros []].
  - destruct H as [H|H]; [congruence|]. destruct (IH H) as (p & q & -> & Hp).
    exists (d :: p), q. split; [reflexivity|]. intros [E|E]; auto.
Qed.
Lemma split_right_around c r b : (code c < 128)%N /\ is_space (code c) = false -> blanks b ->
  map trim_space (split_byte c (r ++ b)) = map trim_space (split_byte c r).
Proof.
  intros C Hb. remember (length r) as n eqn:En. revert r En.
  induction n as [n IH] using lt_wf_ind; intros r En.
  destruct (in_dec Ascii.ascii_dec c r) as [I|I].
  - destruct (in_split c r I) as (p & q & -> & Hp). rewrite <- app_assoc. cbn [app].
    rewrite !split_byte_app by assumption. cbn [map]. f_equal.
    apply (IH (length q)); [|reflexivity]. rewrite En, app_length. cbn [length]. lia.
  - rewrite (split_byte_no c r I), split_byte_no.
    + cbn [map]. rewrite trim_right_around by assumption. reflexivity.
    + rewrite in_app_iff. intros [J|J]; [auto|]. exact (blanks_no c b C Hb J).
Qed.
Lemma colon_ok : (code ":"%char < 128)%N /\ is_space (code ":"%char) = false. Proof. split; reflexivity. Qed.
Lemma comma_ok : (code ","%char < 128)%N /\ is_space (code ","%char) = false. Proof. split; reflexivity. Qed.

(** the outer trimming of a keyword is redundant *)
Lemma parse_keyword_untrimmed key : parse_keyword key =
  match split_byte ":" key with
  | [n] => let name := trim_space n in if is_empty name then None else Some (kw name 0 1 0)
  | [n; index] => let name := trim_space n in if is_empty name then None else parse_positions name index
  | _ => None
  end.
Proof.
  unfold parse_keyword. destruct (trims_trim key) as (a & b & E & Ha & Hb & _).
  set (x := trim_space key) in *. clearbody x. subst key.
  destruct (in_dec Ascii.ascii_dec ":"%char x) as [I|I].
  - destruct (in_split _ x I) as (p & q & -> & Hp).
    replace (a ++ (p ++ ":"%char :: q) ++ b) with ((a ++ p) ++ ":"%char :: (q ++ b)) by (rewrite <- !app_assoc; reflexivity).
    rewrite !split_byte_app.
    2:{ rewrite in_app_iff. intros [J|J]; [exact (blanks_no _ _ colon_ok Ha J)|auto]. }
    2: assumption.
    destruct (in_dec Ascii.ascii_dec ":"%char q) as [J|J].
    + destruct (in_split _ q J) as (p' & q' & -> & Hp'). rewrite <- app_assoc. cbn [app].
      rewrite !split_byte_app by assumption.
      destruct (split_byte ":" q') eqn:E1; [exfalso; exact (split_byte_nonempty _ _ E1)|].
      destruct (split_byte ":" (q' ++ b)) eqn:E2; [exfalso; exact (split_byte_nonempty _ _ E2)|]. reflexivity.
    + rewrite (split_byte_no _ q J), split_byte_no.
      2:{ rewrite in_app_iff. intros [K|K]; [auto|exact (blanks_no _ _ colon_ok Hb K)]. }
      rewrite (trim_left_around a p Ha). cbv zeta. destruct (is_empty (trim_space p)); [reflexivity|].
      unfold parse_positions. rewrite (split_right_around _ q b comma_ok Hb). reflexivity.
  - rewrite (split_byte_no _ x I), split_byte_no.
    2:{ rewrite !in_app_iff. intros [K|[K|K]]; [exact (blanks_no _ _ colon_ok Ha K)|auto|exact (blanks_no _ _ colon_ok Hb K)]. }
    rewrite trim_around by assumption. reflexivity.
Qed.

(** ** Positions *)
Lemma suffix_c a : has_suffix (B "c") a = true <-> exists d, a = d ++ B "c".
Proof.
  unfold has_suffix. rewrite has_prefix_iff. cbn [B list_ascii_of_string rev app]. split.
  - intros (t & E). exists (rev t). rewrite <- (rev_involutive a), E. reflexivity.
  - intros (d & ->). rewrite rev_app_distr. cbn [rev app]. exists (rev d). reflexivity.
Qed.
Lemma numeral_no_c a z d : numeral a z -> a <> d ++ B "c".
Proof.
  intros N ->. destruct (numeral_bytes _ _ "c"%char N) as [H|[H|H]]; try discriminate H.
  - apply in_or_app; right; left; reflexivity.
  - change (code "c"%char) with 99%N in H. lia.
Qed.
Lemma parse_positions_iff name text k : parse_positions name text = Some k <->
  exists c i j, positions (map trim_space (split_byte "," text)) c i j /\ k = kw name c i j.
Proof.
  unfold parse_positions. set (xs := map _ _). clearbody xs. split.
  - destruct xs as [|a [|b [|d [|]]]]; try discriminate.
    + destruct (parse_int a) as [i|] eqn:A; [|discriminate]. intros E; injection E as <-.
      apply parse_int_iff in A. exists 0, i, 0. split; [apply P_id; exact A|reflexivity].
    + destruct (has_suffix (B "c") a) eqn:S.
      * apply suffix_c in S as (e & ->). unfold B; cbn [list_ascii_of_string].
        rewrite removelast_last.
        destruct (parse_int e) as [c|] eqn:A; [|discriminate]. destruct (parse_int b) as [i|] eqn:Bb; [|discriminate].
        intros E; injection E as <-. apply parse_int_iff in A, Bb. exists c, i, 0. split; [apply P_ctxt; assumption|reflexivity].
      * destruct (parse_int a) as [c|] eqn:A; [|discriminate]. destruct (parse_int b) as [i|] eqn:Bb; [|discriminate].
        intros E; injection E as <-. apply parse_int_iff in A, Bb. exists 0, c, i. split; [apply P_plural; assumption|reflexivity].
    + destruct (has_suffix (B "c") a) eqn:S; [|discriminate].
      apply suffix_c in S as (e & ->). unfold B; cbn [list_ascii_of_string]. rewrite removelast_last.
      destruct (parse_int e) as [c|] eqn:A; [|discriminate]. destruct (parse_int b) as [i|] eqn:Bb; [|discriminate].
      destruct (parse_int d) as [j|] eqn:D; [|discriminate].
      intros E; injection E as <-. apply parse_int_iff in A, Bb, D. exists c, i, j. split; [apply P_both; assumption|reflexivity].
  - intros (c & i & j & P & ->). destruct P as [a i A|a b i j A Bb|a b c i A Bb|a b d c i j A Bb D].
    + apply parse_int_iff in A. rewrite A. reflexivity.
    + destruct (has_suffix (B "c") a) eqn:S.
      * apply suffix_c in S as (e & ->). exfalso. exact (numeral_no_c _ _ e A eq_refl).
      * apply parse_int_iff in A, Bb. rewrite A, Bb. reflexivity.
    + rewrite (proj2 (suffix_c _)) by (exists a; reflexivity). unfold B; cbn [list_ascii_of_string]. rewrite removelast_last.
      apply parse_int_iff in A, Bb. rewrite A, Bb. reflexivity.
    + rewrite (proj2 (suffix_c _)) by (exists a; reflexivity). unfold B; cbn [list_ascii_of_string]. rewrite removelast_last.
      apply parse_int_iff in A, Bb, D. rewrite A, Bb, D. reflexivity.
Qed.
Lemma positions_bytes xs c i j x b : positions xs c i j -> In x xs -> In b x ->
  (48 <= code b <= 57)%N \/ b = "+"%char \/ b = "-"%char \/ b = "c"%char.
Proof.
  intros P. assert (Q : forall a z, numeral a z -> In b a -> (48 <= code b <= 57)%N \/ b = "+"%char \/ b = "-"%char \/ b = "c"%char).
  { intros a z N I. destruct (numeral_bytes a z b N I) as [H|[H|H]]; auto. }
  assert (Q' : forall a z, numeral a z -> In b (a ++ B "c") -> (48 <= code b <= 57)%N \/ b = "+"%char \/ b = "-"%char \/ b = "c"%char).
  { intros a z N I. apply in_app_or in I as [I|[I|[]]]; [eauto|auto]. }
  destruct P; cbn [In]; intros Hx Hb; repeat (destruct Hx as [<-|Hx]; [eauto|]); destruct Hx.
Qed.
Lemma positions_ne xs c i j : positions xs c i j -> xs <> [].
Proof. intros [] ; discriminate. Qed.
Lemma trims_map ts xs : Forall2 trims ts xs <-> map trim_space ts = xs.
Proof.
  split.
  - induction 1 as [|t x ts xs H _ IH]; [reflexivity|]. cbn [map]. rewrite IH, (trim_trims _ _ H). reflexivity.
  - intros <-. induction ts as [|t ts IH]; cbn [map]; constructor; [apply trims_trim|exact IH].
Qed.
(** the parts of the text behind the colon contain no separators *)
Lemma part_no ts xs c i j s t : Forall2 trims ts xs -> positions xs c i j -> In t ts ->
  (code s < 128)%N /\ is_space (code s) = false -> ~ ((48 <= code s <= 57)%N \/ s = "+"%char \/ s = "-"%char \/ s = "c"%char) -> ~ In s t.
Proof.
  intros F P I C N J. assert (exists x, In x xs /\ trims t x) as (x & Hx & T).
  { clear P. induction F as [|t' x ts xs T F IH]; [destruct I|]. destruct I as [->|I].
    - exists x. split; [left; reflexivity|exact T].
    - destruct (IH I) as (y & Hy & Ty). exists y. split; [right; exact Hy|exact Ty]. }
  destruct T as (a & b & -> & Ha & Hb & _). rewrite !in_app_iff in J. destruct J as [J|[J|J]].
  - exact (blanks_no _ _ C Ha J).
  - exact (N (positions_bytes _ _ _ _ _ _ P Hx J)).
  - exact (blanks_no _ _ C Hb J).
Qed.
Lemma join_no (s c : ascii) l : s <> c -> (forall t, In t l -> ~ In s t) -> ~ In s (join [c] l).
Proof.
  intros N. induction l as [|x l IH]; intros H; [intros []|].
  destruct l as [|y l]; [exact (H x (or_introl eq_refl))|].
  change (join [c] (x :: y :: l)) with (x ++ [c] ++ join [c] (y :: l)). rewrite !in_app_iff.
  intros [J|[J|J]].
  - exact (H x (or_introl eq_refl) J).
  - destruct J as [J|[]]. congruence.
  - exact (IH (fun t Ht => H t (or_intror Ht)) J).
Qed.

Theorem parse_keyword_iff t k : parse_keyword t = Some k <-> spells1 t k.
Proof.
  rewrite parse_keyword_untrimmed. split.
  - destruct (in_dec Ascii.ascii_dec ":"%char t) as [I|I].
    + destruct (in_split _ t I) as (p & q & -> & Hp). rewrite split_byte_app by assumption.
      destruct (split_byte ":" q) as [|x [|]] eqn:Q; try discriminate.
      { exfalso; exact (split_byte_nonempty _ _ Q). }
      pose proof (join_split ":" q) as J. rewrite Q in J. cbn [join] in J. subst x.
      cbv zeta. destruct (is_empty (trim_space p)) eqn:E; [discriminate|].
      rewrite parse_positions_iff. intros (c & i & j & P & ->).
      rewrite <- (join_split "," q) at 1.
      apply (SP_positions p (trim_space p) (split_byte "," q) (map trim_space (split_byte "," q)) c i j).
      * apply trims_trim.
      * intros Z. rewrite Z in E. discriminate.
      * exact Hp.
      * apply trims_map. reflexivity.
      * exact P.
    + rewrite (split_byte_no _ t I). cbv zeta. destruct (is_empty (trim_space t)) eqn:E; [discriminate|].
      intros X; injection X as <-. apply SP_name; [apply trims_trim| |exact I]. intros Z. rewrite Z in E. discriminate.
  - intros [t' n T N I|tn n ts xs c i j T N I F P].
    + rewrite (split_byte_no _ t' I). cbv zeta. rewrite (trim_trims _ _ T). destruct n; [congruence|reflexivity].
    + unfold B at 1; cbn [list_ascii_of_string app]. rewrite split_byte_app by assumption. rewrite split_byte_no.
      2:{ apply join_no; [discriminate|]. intros u Ht. apply (part_no ts xs c i j ":"%char u F P Ht colon_ok).
          change (code ":"%char) with 58%N. intros [H|[H|[H|H]]]; [lia|discriminate..]. }
      cbv zeta. rewrite (trim_trims _ _ T). destruct n as [|n0 n1]; [congruence|]. cbn [is_empty].
      apply parse_positions_iff. exists c, i, j. split; [|reflexivity].
      unfold B; cbn [list_ascii_of_string]. rewrite split_join.
      * rewrite (proj1 (trims_map ts xs) F). exact P.
      * intros ->. inversion F; subst. exact (positions_ne _ _ _ _ P eq_refl).
      * intros u Ht. apply (part_no ts xs c i j ","%char u F P Ht comma_ok).
        change (code ","%char) with 44%N. intros [H|[H|[H|H]]]; [lia|discriminate..].
Qed.
Lemma parse_each_iff ts ks : parse_each ts = Some ks <-> Forall2 spells1 ts ks.
Proof.
  split.
  - revert ks. induction ts as [|t ts IH]; intros ks; cbn [parse_each].
    + intros E; injection E as <-. constructor.
    + destruct (parse_keyword t) as [k|] eqn:K; [|discriminate]. destruct (parse_each ts) as [l|]; [|discriminate].
      intros E; injection E as <-. constructor; [apply parse_keyword_iff; exact K|apply IH; reflexivity].
  - induction 1 as [|t k ts ks K _ IH]; cbn [parse_each]; [reflexivity|].
    apply parse_keyword_iff in K. rewrite K, IH. reflexivity.
Qed.
Theorem parse_keywords_iff s ks : parse_keywords s = Some ks <-> spells s ks.
Proof.
  unfold parse_keywords, spells. rewrite parse_each_iff. unfold B; cbn [list_ascii_of_string]. split.
  - intros F. exists (split_byte ";" s). split; [apply split_byte_nonempty|]. split; [symmetry; apply join_split|].
    split; [intros t; apply split_byte_pieces|exact F].
  - intros (ts & N & -> & H & F). rewrite split_join by assumption. exact F.
Qed.
