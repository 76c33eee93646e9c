(** [trim_space] removes exactly the white space around a text. *)
From Coq Require Import Lia ZifyBool ZifyNat ZifyN.
From Verif Require Import GoStr GoStrFacts BlankSpec.
Local Open Scope N_scope.

Definition space_runes : list N :=
  [9; 10; 11; 12; 13; 32; 0x85; 0xA0; 0x1680; 0x2000; 0x2001; 0x2002; 0x2003; 0x2004; 0x2005; 0x2006; 0x2007; 0x2008; 0x2009;
   0x200A; 0x2028; 0x2029; 0x202F; 0x205F; 0x3000].
Lemma is_space_in r : is_space r = true <-> In r space_runes.
Proof.
  unfold is_space. split.
  - intros H. unfold space_runes. cbn [In].
    assert (D : r = 9 \/ r = 10 \/ r = 11 \/ r = 12 \/ r = 13 \/ r = 32 \/ r = 0x85 \/ r = 0xA0 \/ r = 0x1680
      \/ r = 0x2000 \/ r = 0x2001 \/ r = 0x2002 \/ r = 0x2003 \/ r = 0x2004 \/ r = 0x2005 \/ r = 0x2006 \/ r = 0x2007
      \/ r = 0x2008 \/ r = 0x2009 \/ r = 0x200A \/ r = 0x2028 \/ r = 0x2029 \/ r = 0x202F \/ r = 0x205F \/ r = 0x3000) by lia.
    intuition congruence.
  - intros H. unfold space_runes in H. cbn [In] in H. repeat (destruct H as [<-|H]; [reflexivity|]). destruct H.
Qed.
Definition space_texts : list bytes := map encode_rune space_runes.
Lemma blank1_in w : blank1 w <-> In w space_texts.
Proof.
  unfold blank1, space_texts. rewrite in_map_iff. split.
  - intros (r & H & ->). exists r. split; [reflexivity|]. apply is_space_in, H.
  - intros (r & <- & H). exists r. split; [apply is_space_in, H|reflexivity].
Qed.
Ltac blank_cases H :=
  apply blank1_in in H; vm_compute in H; repeat (destruct H as [<-|H]; [|]); [..|destruct H].
Lemma blank1_len w t : blank1 w -> space_len (w ++ t) = length w.
Proof.
  intros (r & H & ->). assert (V : valid_rune r = true) by (apply is_space_in in H; cbn in H; repeat (destruct H as [<-|H]; [reflexivity|]); destruct H).
  unfold space_len. rewrite encode_decode by exact V. rewrite H.
  destruct (encode_rune r ++ t) eqn:E; [|reflexivity]. apply app_eq_nil in E as [E _]. rewrite E. reflexivity.
Qed.
Lemma blank1_ne w : blank1 w -> w <> [].
Proof. intros H. blank_cases H; discriminate. Qed.
(** a first byte never continues a character *)
Lemma blank1_head w c t : blank1 w -> w = c :: t -> is_cont c = false.
Proof. intros H E. blank_cases H; injection E as <- _; reflexivity. Qed.
Lemma blank1_tail w c t : blank1 w -> w = c :: t -> forallb is_cont t = true.
Proof. intros H E. blank_cases H; injection E as _ <-; reflexivity. Qed.
Lemma space_len_none s : (forall w t, blank1 w -> s <> w ++ t) -> space_len s = 0%nat.
Proof.
  intros H. unfold space_len. destruct s as [|c t]; [reflexivity|].
  destruct (decode_rune (c :: t)) as [r w] eqn:E. destruct (is_space r) eqn:S; [|reflexivity]. exfalso.
  destruct (N.eq_dec r RuneError) as [->|N]; [discriminate|].
  destruct (decode_encode (c :: t) r w) as (V & H1 & H2); [discriminate|exact E|tauto|].
  apply (H (encode_rune r) (skipn w (c :: t))); [exists r; auto|]. exact H1.
Qed.
Lemma rspace_len_some w t : blank1 w -> rspace_len (rev w ++ t) = length w.
Proof. intros H. blank_cases H; reflexivity. Qed.
Lemma decode_two c1 c0 r : decode_rune [c1; c0] = (r, 2%nat) -> encode_rune r = [c1; c0].
Proof.
  intros E. destruct (N.eq_dec r RuneError) as [->|N].
  - exfalso. revert E. unfold decode_rune.
    repeat match goal with |- context [if ?b then _ else _] => destruct b eqn:? end; intros E; try discriminate.
    injection E as E. unfold RuneError, is_cont, in_range in *. pose proof (code_lt c1). pose proof (code_lt c0). lia.
  - destruct (decode_encode [c1; c0] r 2) as (V & H1 & H2); [discriminate|exact E|tauto|]. cbn [skipn] in H1. rewrite app_nil_r in H1. symmetry. exact H1.
Qed.
Lemma decode_three c2 c1 c0 r : decode_rune [c2; c1; c0] = (r, 3%nat) -> r <> RuneError -> encode_rune r = [c2; c1; c0].
Proof.
  intros E N. destruct (decode_encode [c2; c1; c0] r 3) as (V & H1 & H2); [discriminate|exact E|tauto|]. cbn [skipn] in H1. rewrite app_nil_r in H1. symmetry. exact H1.
Qed.
Lemma rspace_len_none s : (forall w t, blank1 w -> s <> t ++ w) -> rspace_len (rev s) = 0%nat.
Proof.
  intros H. assert (H' : forall w t, blank1 w -> rev s <> rev w ++ t).
  { intros w t B E. apply (H w (rev t) B). rewrite <- (rev_involutive s), E, rev_app_distr, rev_involutive. reflexivity. }
  clear H. destruct (rev s) as [|c0 t]; [reflexivity|]. unfold rspace_len.
  destruct (N.ltb_spec (code c0) 128) as [L|L].
  - destruct (is_space (code c0)) eqn:S; [|reflexivity]. exfalso. apply (H' [c0] t); [|reflexivity].
    exists (code c0). split; [exact S|]. unfold encode_rune.
    replace (valid_rune (code c0)) with true by (unfold valid_rune; lia). destruct (N.ltb_spec (code c0) 128); [|lia].
    rewrite byte_of_code. reflexivity.
  - destruct t as [|c1 t1]; [reflexivity|]. destruct (decode_rune [c1; c0]) as [r2 w2] eqn:E2.
    destruct (Nat.eqb_spec w2 2) as [->|]; cbn [andb].
    + destruct (is_space r2) eqn:S.
      { exfalso. apply (H' [c1; c0] t1); [|reflexivity]. exists r2. split; [exact S|]. symmetry. apply decode_two, E2. }
      destruct t1 as [|c2 t2]; [reflexivity|]. destruct (decode_rune [c2; c1; c0]) as [r3 w3] eqn:E3.
      destruct (Nat.eqb_spec w3 3) as [->|]; [|reflexivity]. destruct (is_space r3) eqn:S3; [|reflexivity]. exfalso.
      apply (H' [c2; c1; c0] t2); [|reflexivity]. exists r3. split; [exact S3|]. symmetry. apply decode_three; [exact E3|].
      intros ->. discriminate.
    + destruct t1 as [|c2 t2]; [reflexivity|]. destruct (decode_rune [c2; c1; c0]) as [r3 w3] eqn:E3.
      destruct (Nat.eqb_spec w3 3) as [->|]; [|reflexivity]. destruct (is_space r3) eqn:S3; [|reflexivity]. exfalso.
      apply (H' [c2; c1; c0] t2); [|reflexivity]. exists r3. split; [exact S3|]. symmetry. apply decode_three; [exact E3|].
      intros ->. discriminate.
Qed.
Lemma blank1_dec s : {exists w t, blank1 w /\ s = w ++ t} + {forall w t, blank1 w -> s <> w ++ t}.
Proof.
  destruct (existsb (fun w => has_prefix w s) space_texts) eqn:E.
  - left. apply existsb_exists in E as (w & I & P). apply has_prefix_iff in P as [t ->]. exists w, t. split; [apply blank1_in, I|reflexivity].
  - right. intros w t B ->. apply blank1_in in B.
    assert (existsb (fun w' => has_prefix w' (w ++ t)) space_texts = true); [|congruence].
    apply existsb_exists. exists w. split; [exact B|apply has_prefix_app].
Qed.

Lemma trim_left_blanks n a x : blanks a -> (length (a ++ x) <= n)%nat -> (forall w t, blank1 w -> x <> w ++ t) ->
  trim_left_fuel n (a ++ x) = x.
Proof.
  intros B. revert n. induction B as [|w a W B IH]; intros n L H.
  - cbn [app]. destruct n as [|n]; [reflexivity|]. cbn [trim_left_fuel]. rewrite space_len_none by exact H. reflexivity.
  - rewrite <- app_assoc. rewrite <- !app_assoc, app_length in L. pose proof (blank1_ne w W) as N.
    destruct w as [|c w]; [congruence|]. cbn [length] in L. destruct n as [|n]; [lia|]. cbn [trim_left_fuel].
    rewrite blank1_len by exact W. cbn [length]. change (S (length w)) with (length (c :: w)).
    rewrite skipn_app, skipn_all, Nat.sub_diag. cbn [app skipn]. apply IH; [lia|exact H].
Qed.
Lemma rtrim_blanks b : blanks b -> forall n x, (length (x ++ b) <= n)%nat -> (forall w t, blank1 w -> x <> t ++ w) ->
  rtrim_fuel n (rev (x ++ b)) = rev x.
Proof.
  assert (S : forall b, blanks b -> b = [] \/ exists b' w, b = b' ++ w /\ blanks b' /\ blank1 w).
  { induction 1 as [|w s W B IH]; [left; reflexivity|]. right. destruct IH as [->|(b' & w' & -> & B' & W')].
    - exists [], w. rewrite app_nil_r. repeat split; [constructor|exact W].
    - exists (w ++ b'), w'. rewrite <- app_assoc. repeat split; [constructor; assumption|exact W']. }
  intros B n. revert b B. induction n as [|n IH]; intros b B x L H.
  - destruct (x ++ b) eqn:E; [|cbn in L; lia]. apply app_eq_nil in E as [-> ->]. reflexivity.
  - destruct (S b B) as [->|(b' & w & -> & B' & W)].
    + rewrite app_nil_r. cbn [rtrim_fuel]. rewrite rspace_len_none by exact H. reflexivity.
    + cbn [rtrim_fuel]. rewrite app_assoc, rev_app_distr. rewrite rspace_len_some by exact W.
      pose proof (blank1_ne w W) as N. destruct (length w) as [|m] eqn:Lw; [destruct w; [congruence|discriminate]|].
      rewrite <- Lw, <- (rev_length w), skipn_app, skipn_all, Nat.sub_diag. cbn [app skipn]. apply IH; [exact B'| |exact H].
      rewrite !app_length in *. lia.
Qed.
Lemma blanks_app a b : blanks a -> blanks b -> blanks (a ++ b).
Proof. induction 1; intros Hb; [exact Hb|]. rewrite <- app_assoc. constructor; auto. Qed.
Lemma cont_head b c t : blanks b -> b = c :: t -> is_cont c = false.
Proof.
  intros B. destruct B as [|w s W B]; intros E; [discriminate|].
  destruct w as [|d w]; [destruct (blank1_ne _ W eq_refl)|]. injection E as -> _. eapply blank1_head; [exact W|reflexivity].
Qed.
Lemma app_cases {X} (a b c d : list X) : a ++ b = c ++ d -> (exists u, a = c ++ u /\ d = u ++ b) \/ (exists u, u <> [] /\ c = a ++ u /\ b = u ++ d).
Proof.
  revert c. induction a as [|x a IH]; intros c E.
  - cbn in E. destruct c as [|y c]; [left; exists []; auto|]. right. exists (y :: c). repeat split; [discriminate|exact E].
  - destruct c as [|y c]; [left; exists (x :: a); auto|]. injection E as -> E. destruct (IH c E) as [(u & -> & ->)|(u & N & -> & ->)].
    + left. exists u. auto.
    + right. exists u. auto.
Qed.
(** behind a text that does not start with white space, appended white space
    does not make it start with white space *)
Lemma no_blank_head x b : x <> [] -> blanks b -> (forall w t, blank1 w -> x <> w ++ t) -> forall w t, blank1 w -> x ++ b <> w ++ t.
Proof.
  intros N Bb H w t W E. apply app_cases in E as [(u & -> & _)|(u & Nu & -> & ->)]; [exact (H w u W eq_refl)|].
  destruct u as [|c u]; [congruence|]. pose proof (cont_head _ c (u ++ t) Bb eq_refl) as C.
  destruct x as [|d x]; [congruence|]. pose proof (blank1_tail _ d (x ++ c :: u) W eq_refl) as F.
  rewrite forallb_app in F. cbn [forallb] in F. rewrite C in F. rewrite andb_false_r in F. discriminate.
Qed.
Theorem trim_trims s x : trims s x -> trim_space s = x.
Proof.
  intros (a & b & -> & Ba & Bb & Hl & Hr). unfold trim_space. destruct x as [|c x].
  - cbn [app]. replace (trim_left (a ++ b)) with (@nil ascii).
    + reflexivity.
    + symmetry. unfold trim_left. rewrite <- (app_nil_r (a ++ b)) at 2.
      rewrite (trim_left_blanks _ (a ++ b) []); [reflexivity|apply blanks_app; assumption|rewrite app_nil_r; lia|].
      intros w t W E. symmetry in E. apply app_eq_nil in E as [E _]. exact (blank1_ne w W E).
  - unfold trim_left. rewrite trim_left_blanks; [|exact Ba|lia|apply no_blank_head; [discriminate|exact Bb|exact Hl]].
    unfold trim_right. rewrite (rtrim_blanks b Bb); [apply rev_involutive|lia|exact Hr].
Qed.
Lemma trim_left_spec n s : (length s <= n)%nat -> exists a, s = a ++ trim_left_fuel n s /\ blanks a
  /\ forall w t, blank1 w -> trim_left_fuel n s <> w ++ t.
Proof.
  revert s. induction n as [|n IH]; intros s L.
  - destruct s; [|cbn in L; lia]. exists []. repeat split; [constructor|]. intros w t W E. symmetry in E.
    apply app_eq_nil in E as [E _]. exact (blank1_ne w W E).
  - destruct (blank1_dec s) as [(w & t & W & ->)|H].
    + pose proof (blank1_ne w W) as N. destruct w as [|c w]; [congruence|].
      cbn [trim_left_fuel]. rewrite blank1_len by exact W. cbn [length]. change (S (length w)) with (length (c :: w)).
      rewrite skipn_app, skipn_all, Nat.sub_diag. cbn [app skipn]. rewrite app_length in L. cbn [length] in L.
      destruct (IH t ltac:(lia)) as (a & E & B & H). exists ((c :: w) ++ a). split; [|split; [constructor; assumption|exact H]].
      rewrite <- app_assoc. cbn [app]. f_equal. f_equal. exact E.
    + exists []. cbn [trim_left_fuel]. rewrite space_len_none by exact H. repeat split; [constructor|exact H].
Qed.
Lemma rev_blank1_dec s : {exists w t, blank1 w /\ s = t ++ w} + {forall w t, blank1 w -> s <> t ++ w}.
Proof.
  destruct (existsb (fun w => has_suffix w s) space_texts) eqn:E.
  - left. apply existsb_exists in E as (w & I & P). unfold has_suffix in P. apply has_prefix_iff in P as [t P].
    exists w, (rev t). split; [apply blank1_in, I|]. rewrite <- (rev_involutive s), P, rev_app_distr, rev_involutive. reflexivity.
  - right. intros w t B ->. apply blank1_in in B.
    assert (existsb (fun w' => has_suffix w' (t ++ w)) space_texts = true); [|congruence].
    apply existsb_exists. exists w. split; [exact B|]. unfold has_suffix. rewrite rev_app_distr. apply has_prefix_app.
Qed.
Lemma rtrim_spec n s : (length s <= n)%nat -> exists b, s = rev (rtrim_fuel n (rev s)) ++ b /\ blanks b
  /\ forall w t, blank1 w -> rev (rtrim_fuel n (rev s)) <> t ++ w.
Proof.
  revert s. induction n as [|n IH]; intros s L.
  - destruct s; [|cbn in L; lia]. exists []. repeat split; [constructor|]. intros w t W E. cbn in E. symmetry in E.
    apply app_eq_nil in E as [_ E]. exact (blank1_ne w W E).
  - destruct (rev_blank1_dec s) as [(w & t & W & ->)|H].
    + cbn [rtrim_fuel]. rewrite rev_app_distr, rspace_len_some by exact W. pose proof (blank1_ne w W) as N.
      destruct (length w) as [|m] eqn:Lw; [destruct w; [congruence|discriminate]|].
      rewrite <- Lw, <- (rev_length w), skipn_app, skipn_all, Nat.sub_diag. cbn [app skipn]. rewrite app_length in L.
      destruct (IH t ltac:(lia)) as (b & E & B & H). exists (b ++ w). split; [rewrite app_assoc; f_equal; exact E|].
      split; [|exact H]. apply blanks_app; [exact B|]. rewrite <- (app_nil_r w). constructor; [exact W|constructor].
    + exists []. cbn [rtrim_fuel]. rewrite rspace_len_none by exact H. rewrite rev_involutive, app_nil_r.
      repeat split; [constructor|exact H].
Qed.
Theorem trims_trim s : trims s (trim_space s).
Proof.
  unfold trims, trim_space, trim_left, trim_right. destruct (trim_left_spec (length s) s ltac:(lia)) as (a & E & Ba & Hl).
  set (y := trim_left_fuel (length s) s) in *. destruct (rtrim_spec (length y) y ltac:(lia)) as (b & E' & Bb & Hr).
  set (x := rev (rtrim_fuel (length y) (rev y))) in *. exists a, b.
  split; [rewrite E at 1; f_equal; exact E'|]. split; [exact Ba|]. split; [exact Bb|]. split; [|exact Hr].
  intros w t W Ex. apply (Hl w (t ++ b) W). rewrite E', Ex, <- app_assoc. reflexivity.
Qed.
Theorem trim_iff s x : trim_space s = x <-> trims s x.
Proof. split; [intros <-; apply trims_trim|apply trim_trims]. Qed.
Lemma trim_nil s : trim_space s = [] <-> blanks s.
Proof.
  rewrite trim_iff. split.
  - intros (a & b & -> & Ba & Bb & _). apply blanks_app; assumption.
  - intros B. assert (N : forall w, blank1 w -> w <> []) by exact blank1_ne.
    exists s, []. split; [cbn; rewrite app_nil_r; reflexivity|]. split; [exact B|]. split; [constructor|].
    split; intros w t W E; symmetry in E; apply app_eq_nil in E as [E1 E2]; apply (N w W); assumption.
Qed.
