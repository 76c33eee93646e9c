(** Facts about .mo files. *)
From Coq Require Import Lia ZifyBool ZifyNat ZifyN Permutation.
From Verif Require Import GoStr GoStrFacts GoMap GoMapFacts FileModel FileSpec FileFacts PoModel PoSpec PoReadFacts
  SortFacts PoCatalogFacts MoModel MoSpec.
Ltac Zify.zify_post_hook ::= Z.div_mod_to_equations.
Local Open Scope N_scope.

(** ** Reading bytes *)
Lemma drop_skipn : forall s n, drop n s = skipn (N.to_nat n) s.
Proof.
  induction s as [|c s IH]; intros n; cbn [drop].
  - destruct (n =? 0), (N.to_nat n); reflexivity.
  - destruct (n =? 0) eqn:E.
    + replace (N.to_nat n) with 0%nat by lia. reflexivity.
    + rewrite IH. replace (N.to_nat n) with (S (N.to_nat (n - 1))) by lia. reflexivity.
Qed.
Lemma drop_drop a b s : drop a (drop b s) = drop (b + a) s.
Proof.
  rewrite !drop_skipn. replace (N.to_nat (b + a)) with (N.to_nat b + N.to_nat a)%nat by lia.
  generalize (N.to_nat b) as n. intros n. revert s. induction n as [|n IH]; intros s; [reflexivity|].
  destruct s; [cbn [skipn]; rewrite !skipn_nil; reflexivity|]. apply IH.
Qed.
Lemma take_some : forall s n x, take n s = Some x <-> exists r, s = x ++ r /\ N.of_nat (length x) = n.
Proof.
  induction s as [|c s IH]; intros n x; cbn [take]; destruct (n =? 0) eqn:E.
  - split.
    + intros [= <-]. exists []. split; [reflexivity|cbn [length]; lia].
    + intros (r & H & L). destruct x; [reflexivity|discriminate].
  - split; [discriminate|]. intros (r & H & L). destruct x; [cbn [length] in L; lia|discriminate].
  - split.
    + intros [= <-]. exists (c :: s). split; [reflexivity|cbn [length]; lia].
    + intros (r & H & L). destruct x; [reflexivity|cbn [length] in L; lia].
  - destruct (take (n - 1) s) as [y|] eqn:T; cbn [option_map].
    + apply IH in T as (r & -> & L). split.
      * intros [= <-]. exists r. split; [reflexivity|cbn [length]; lia].
      * intros (r' & H & L'). destruct x as [|d x]; [cbn [length] in L'; lia|].
        injection H as <- H. do 2 f_equal.
        assert (Q : take (n - 1) (y ++ r) = Some x) by (apply IH; exists r'; split; [exact H|cbn [length] in L'; lia]).
        assert (Q' : take (n - 1) (y ++ r) = Some y) by (apply IH; exists r; auto). congruence.
    + split; [discriminate|]. intros (r & H & L). destruct x as [|d x]; [cbn [length] in L; lia|].
      injection H as <- ->. assert (Q : take (n - 1) (x ++ r) = Some x); [|congruence].
      apply IH. exists r. split; [reflexivity|cbn [length] in L; lia].
Qed.
Lemma byte_at_drop c p : byte_at c p = option_map code (hd_error (drop p c)).
Proof.
  unfold byte_at. rewrite drop_skipn. generalize (N.to_nat p) as n. intros n. f_equal.
  revert c. induction n as [|n IH]; intros c; destruct c; cbn [nth_error skipn hd_error]; auto.
Qed.
Lemma word_at_drop bo c p v : word_at bo c p v <->
  exists b0 b1 b2 b3 r, drop p c = b0 :: b1 :: b2 :: b3 :: r /\ v = word32 bo b0 b1 b2 b3.
Proof.
  unfold word_at. rewrite !byte_at_drop.
  replace (drop (p + 1) c) with (tl (drop p c)) by (rewrite <- drop_drop; destruct (drop p c) as [|a [|b l]]; reflexivity).
  replace (drop (p + 2) c) with (tl (tl (drop p c)))
    by (rewrite <- drop_drop; destruct (drop p c) as [|a0 [|a1 [|b l]]]; reflexivity).
  replace (drop (p + 3) c) with (tl (tl (tl (drop p c))))
    by (rewrite <- drop_drop; destruct (drop p c) as [|a0 [|a1 [|a2 [|b l]]]]; reflexivity).
  generalize (drop p c) as s. intros s. split.
  - intros (b0 & b1 & b2 & b3 & H0 & H1 & H2 & H3 & ->).
    destruct s as [|x0 [|x1 [|x2 [|x3 s]]]]; try discriminate. cbn in H0, H1, H2, H3.
    injection H0 as <-. injection H1 as <-. injection H2 as <-. injection H3 as <-.
    exists x0, x1, x2, x3, s. split; [reflexivity|]. destruct bo; cbn [word32]; lia.
  - intros (b0 & b1 & b2 & b3 & r & -> & ->). exists (code b0), (code b1), (code b2), (code b3).
    cbn [tl hd_error option_map]. repeat split.
Qed.
Lemma half_at_drop bo c p v : half_at bo c p v <->
  exists b0 b1 r, drop p c = b0 :: b1 :: r /\ v = word16 bo b0 b1.
Proof.
  unfold half_at. rewrite !byte_at_drop.
  replace (drop (p + 1) c) with (tl (drop p c)) by (rewrite <- drop_drop; destruct (drop p c) as [|a [|b l]]; reflexivity).
  generalize (drop p c) as s. intros s. split.
  - intros (b0 & b1 & H0 & H1 & ->).
    destruct s as [|x0 [|x1 s]]; try discriminate. cbn in H0, H1.
    injection H0 as <-. injection H1 as <-.
    exists x0, x1, s. split; [reflexivity|]. destruct bo; cbn [word16]; lia.
  - intros (b0 & b1 & r & -> & ->). exists (code b0), (code b1).
    cbn [tl hd_error option_map]. repeat split.
Qed.
Lemma bytes_at_drop c p s : s = [] \/ bytes_at c p s <-> exists r, drop p c = s ++ r.
Proof.
  split.
  - intros [->|(a & b & -> & L)]; [eexists; reflexivity|]. exists b. rewrite drop_skipn.
    replace (N.to_nat p) with (length a) by lia. rewrite skipn_app, skipn_all, Nat.sub_diag. reflexivity.
  - intros [r H]. destruct s as [|x s]; [left; reflexivity|right]. rewrite drop_skipn in H.
    exists (firstn (N.to_nat p) c), r. split; [rewrite <- H; symmetry; apply firstn_skipn|].
    rewrite firstn_length. assert (L : (length (skipn (N.to_nat p) c) > 0)%nat) by (rewrite H; cbn [app length]; lia).
    rewrite skipn_length in L. lia.
Qed.
Lemma read_str_spec c l o s : read_str c (l, o) = Some s <-> l = N.of_nat (length s) /\ (s = [] \/ bytes_at c o s).
Proof.
  unfold read_str. cbn [fst snd]. rewrite take_some, bytes_at_drop. split.
  - intros (r & H & <-). eauto.
  - intros [-> [r H]]. eauto.
Qed.
Fixpoint pairs_at (bo : border) (c : bytes) (p : N) (l : list (N * N)) : Prop :=
  match l with
  | [] => True
  | (a, b) :: r => word_at bo c p a /\ word_at bo c (p + 4) b /\ pairs_at bo c (p + 8) r
  end.
Lemma word_at_fun bo c p v v' : word_at bo c p v -> word_at bo c p v' -> v = v'.
Proof. rewrite !word_at_drop. intros (?&?&?&?&?&E&->) (?&?&?&?&?&E'&->). congruence. Qed.
Lemma half_at_fun bo c p v v' : half_at bo c p v -> half_at bo c p v' -> v = v'.
Proof. rewrite !half_at_drop. intros (?&?&?&E&->) (?&?&?&E'&->). congruence. Qed.
Lemma read_table_spec bo c : forall l p n,
  read_table bo n (drop p c) = Some l <-> n = N.of_nat (length l) /\ pairs_at bo c p l.
Proof.
  induction l as [|[a b] l IH]; intros p n; cbn [pairs_at length].
  - split.
    + intros H. split; [|exact I]. destruct (drop p c) as [|b0 [|b1 [|b2 [|b3 [|b4 [|b5 [|b6 [|b7 r]]]]]]]];
        cbn [read_table] in H; destruct (n =? 0) eqn:E; try lia; try discriminate.
      destruct (read_table bo (n - 1) r); discriminate.
    + intros [-> _]. destruct (drop p c); reflexivity.
  - rewrite !word_at_drop. split.
    + intros H. destruct (drop p c) as [|b0 [|b1 [|b2 [|b3 [|b4 [|b5 [|b6 [|b7 r]]]]]]]] eqn:D;
        cbn [read_table] in H; destruct (n =? 0) eqn:E; try discriminate.
      assert (Dr : drop (p + 8) c = r) by (rewrite <- drop_drop, D; destruct r; reflexivity).
      destruct (read_table bo (n - 1) r) as [l'|] eqn:R; [|discriminate].
      cbn [option_map] in H. injection H as <- <- ->. rewrite <- Dr in R. apply IH in R as [R1 R2].
      split; [lia|]. split; [exists b0, b1, b2, b3; eauto|]. split; [|exact R2].
      exists b4, b5, b6, b7, r. split; [|reflexivity]. rewrite <- drop_drop, D. reflexivity.
    + intros (-> & (b0 & b1 & b2 & b3 & r1 & D1 & ->) & (b4 & b5 & b6 & b7 & r2 & D2 & ->) & H).
      assert (Q : r1 = b4 :: b5 :: b6 :: b7 :: r2) by (rewrite <- drop_drop, D1 in D2; destruct r1; exact D2). subst r1.
      rewrite D1. cbn [read_table]. destruct (N.of_nat (S (length l)) =? 0) eqn:E; [lia|].
      assert (R : read_table bo (N.of_nat (S (length l)) - 1) (drop (p + 8) c) = Some l)
        by (apply IH; split; [lia|exact H]).
      assert (Dr : drop (p + 8) c = r2) by (rewrite <- drop_drop, D1; destruct r2; reflexivity).
      rewrite Dr in R. rewrite R. reflexivity.
Qed.
Lemma table_pairs bo c : forall l p, table_at bo c p l <->
  exists ps, pairs_at bo c p ps /\ length ps = length l /\ Forall2 (fun lo s => read_str c lo = Some s) ps l.
Proof.
  induction l as [|s l IH]; intros p; cbn [table_at].
  - split; [intros _; exists []; repeat split; constructor|intros _; exact I].
  - split.
    + intros (H1 & (off & H2 & H3) & H4). apply IH in H4 as (ps & P & L & F).
      exists ((N.of_nat (length s), off) :: ps). split; [cbn [pairs_at]; auto|]. split; [cbn [length]; lia|].
      constructor; [|exact F]. apply read_str_spec. auto.
    + intros ([|[a b] ps] & P & L & F); [discriminate|]. inversion F as [|? ? ? ? F1 F2]; subst.
      apply read_str_spec in F1 as [-> F1]. cbn [pairs_at] in P. destruct P as (P1 & P2 & P3).
      split; [exact P1|]. split; [eauto|]. apply IH. exists ps. cbn [length] in L. split; [exact P3|]. split; [lia|exact F2].
Qed.

Lemma forall2_length {X Y} (R : X -> Y -> Prop) a b : Forall2 R a b -> length a = length b.
Proof. intros H. induction H; cbn [length]; congruence. Qed.

(** ** The reader accepts exactly the contents that store strings *)
Definition catalog_of (ids strs : list bytes) : file :=
  fold_left (fun f p => add_entry f (mo_entry (fst p) (snd p))) (combine ids strs) new_file.
Lemma read_strings_spec c : forall ps ps' f g, length ps = length ps' ->
  (read_strings c ps ps' f = MoOk g <->
   exists ids strs, Forall2 (fun lo s => read_str c lo = Some s) ps ids
     /\ Forall2 (fun lo s => read_str c lo = Some s) ps' strs
     /\ g = fold_left (fun f p => add_entry f (mo_entry (fst p) (snd p))) (combine ids strs) f).
Proof.
  induction ps as [|p ps IH]; intros [|p' ps'] f g L; try discriminate; cbn [read_strings].
  - split.
    + intros [= <-]. exists [], []. repeat split; constructor.
    + intros (ids & strs & F & _ & ->). inversion F. reflexivity.
  - cbn [length] in L. injection L as L. split.
    + destruct (read_str c p) as [id|] eqn:E1; [|discriminate].
      destruct (read_str c p') as [str|] eqn:E2; [|discriminate].
      intros H. apply IH in H as (ids & strs & F1 & F2 & ->); [|exact L].
      exists (id :: ids), (str :: strs). repeat split; constructor; assumption.
    + intros (ids & strs & F1 & F2 & ->). inversion F1 as [|? id ? ids' E1 F1']; subst.
      inversion F2 as [|? str ? strs' E2 F2']; subst. rewrite E1, E2. apply IH; [exact L|].
      exists ids', strs'. auto.
Qed.
Lemma read_strings_total c : forall ps ps' f, length ps = length ps' -> read_strings c ps ps' f <> MoPanic.
Proof.
  induction ps as [|p ps IH]; intros [|p' ps'] f L; try discriminate; cbn [read_strings].
  destruct (read_str c p); [|discriminate]. destruct (read_str c p'); [|discriminate]. apply IH.
  cbn [length] in L. lia.
Qed.
Definition read_with (bo : border) (content : bytes) : mores :=
  match read_header bo content with
  | None => MoErr
  | Some h =>
      if negb (h_major h =? 0) && negb (h_major h =? 1) then MoErr else
      if negb (h_minor h =? 0) && negb (h_minor h =? 1) then MoErr else
      match read_table bo (h_count h) (drop (h_o h) content) with
      | None => MoErr
      | Some ids =>
          match read_table bo (h_count h) (drop (h_t h) content) with
          | None => MoErr
          | Some strs => read_strings content ids strs new_file
          end
      end
  end.
Lemma table_len bo c p n l : read_table bo n (drop p c) = Some l -> n = N.of_nat (length l).
Proof. intros H. apply read_table_spec in H as [H _]. exact H. Qed.
Lemma read_with_total bo c : read_with bo c <> MoPanic.
Proof.
  unfold read_with. destruct (read_header bo c); [|discriminate].
  destruct (_ && _); [discriminate|]. destruct (_ && _); [discriminate|].
  destruct (read_table bo _ _) as [ids|] eqn:E1; [|discriminate].
  destruct (read_table bo (h_count _) (drop (h_t _) _)) as [strs|] eqn:E2; [|discriminate].
  apply read_strings_total. apply table_len in E1, E2. lia.
Qed.
Lemma read_header_spec bo c : (28 <= length c)%nat <->
  exists h, read_header bo c = Some h /\ half_at bo c 4 (h_major h) /\ half_at bo c 6 (h_minor h)
    /\ word_at bo c 8 (h_count h) /\ word_at bo c 12 (h_o h) /\ word_at bo c 16 (h_t h).
Proof.
  unfold read_header. split.
  - intros H. do 28 (destruct c as [|? c]; [cbn [length] in H; lia|]).
    match goal with |- context [drop 4 (_ :: _ :: _ :: _ :: ?t)] => change (drop 4 _) with t; set (r := t);
      assert (T : take 24 r = Some (firstn 24 r)) by (apply take_some; exists c; split; reflexivity) end.
    rewrite T. subst r. cbn [firstn]. eexists. split; [reflexivity|]. rewrite !word_at_drop, !half_at_drop.
    repeat split; repeat eexists.
  - intros (h & H & _). destruct (take 24 (drop 4 c)) as [x|] eqn:E; [|discriminate].
    apply take_some in E as (r & E & L). rewrite drop_skipn in E.
    assert (Q : length (skipn (N.to_nat 4) c) = length (x ++ r)) by congruence.
    rewrite skipn_length, app_length in Q. lia.
Qed.
Definition mword (bo : border) : N := match bo with LE => mo_magic | BE => mo_magic_big end.
Definition order (bo : border) (c : bytes) : Prop := read_magic c = Some (mword bo).
Lemma read_mo_with c : read_mo c =
  match read_magic c with
  | Some m => if m =? mo_magic_big then read_with BE c else if m =? mo_magic then read_with LE c else MoErr
  | None => MoErr
  end.
Proof. reflexivity. Qed.
Lemma order_word bo c : read_magic c = Some (mword bo) <-> word_at bo c 0 0x950412de.
Proof.
  rewrite word_at_drop. replace (drop 0 c) with c by (destruct c; reflexivity).
  unfold read_magic. split.
  - intros H. destruct (take 4 c) as [x|] eqn:E; [|discriminate].
    destruct x as [|b0 [|b1 [|b2 [|b3 [|? ?]]]]]; try discriminate.
    assert (H' : word32 LE b0 b1 b2 b3 = mword bo) by congruence. clear H. rename H' into H.
    apply take_some in E as (r & -> & _). exists b0, b1, b2, b3, r. split; [reflexivity|].
    pose proof (code_lt b0). pose proof (code_lt b1). pose proof (code_lt b2). pose proof (code_lt b3).
    destruct bo; cbn [mword] in H; unfold word32, mo_magic, mo_magic_big in *; [lia|].
    assert (code b3 = 222) by lia. assert (code b2 = 18) by lia. assert (code b1 = 4) by lia. lia.
  - intros (b0 & b1 & b2 & b3 & r & -> & E).
    assert (T : take 4 (b0 :: b1 :: b2 :: b3 :: r) = Some [b0; b1; b2; b3])
      by (apply take_some; exists r; split; reflexivity).
    rewrite T. f_equal.
    pose proof (code_lt b0). pose proof (code_lt b1). pose proof (code_lt b2). pose proof (code_lt b3).
    destruct bo; cbn [mword]; unfold word32, mo_magic, mo_magic_big in *; [lia|].
    assert (code b0 = 149) by lia. assert (code b1 = 4) by lia. assert (code b2 = 18) by lia. lia.
Qed.
Lemma read_with_spec bo c f : (word_at bo c 0 0x950412de /\ read_with bo c = MoOk f) <->
  exists ids strs, stores bo c ids strs /\ f = catalog_of ids strs.
Proof.
  unfold stores, read_with. split.
  - intros [M H]. destruct (read_header bo c) as [h|] eqn:Eh; [|discriminate].
    assert (L : (28 <= length c)%nat).
    { unfold read_header in Eh. destruct (take 24 (drop 4 c)) as [x|] eqn:E; [|discriminate].
      apply take_some in E as (r & E & L). rewrite drop_skipn in E.
      assert (Q : length (skipn (N.to_nat 4) c) = length (x ++ r)) by congruence.
      rewrite skipn_length, app_length in Q. lia. }
    destruct (proj1 (read_header_spec bo c) L) as (h' & Eh' & H1 & H2 & H3 & H4 & H5).
    rewrite Eh in Eh'. injection Eh' as <-.
    destruct (negb (h_major h =? 0) && negb (h_major h =? 1)) eqn:V1; [discriminate|].
    destruct (negb (h_minor h =? 0) && negb (h_minor h =? 1)) eqn:V2; [discriminate|].
    destruct (read_table bo (h_count h) (drop (h_o h) c)) as [ps|] eqn:T1; [|discriminate].
    destruct (read_table bo (h_count h) (drop (h_t h) c)) as [ps'|] eqn:T2; [|discriminate].
    apply read_table_spec in T1 as [N1 P1], T2 as [N2 P2].
    apply read_strings_spec in H as (ids & strs & F1 & F2 & ->); [|lia].
    pose proof (forall2_length _ _ _ F1) as L1. pose proof (forall2_length _ _ _ F2) as L2.
    exists ids, strs. split; [|reflexivity]. split; [exact M|].
    split; [exists (h_major h), (h_minor h); repeat split; auto; lia|]. split; [|exact L].
    exists (h_count h), (h_o h), (h_t h). do 3 (split; [assumption|]). split; [lia|]. split; [lia|].
    rewrite !table_pairs. split; [exists ps|exists ps']; auto.
  - intros (ids & strs & (M & (ma & mi & A1 & A2 & A3 & A4) & (n & o & t & W1 & W2 & W3 & N1 & N2 & T1 & T2) & L) & ->).
    split; [exact M|]. destruct (proj1 (read_header_spec bo c) L) as (h & Eh & H1 & H2 & H3 & H4 & H5). rewrite Eh.
    apply table_pairs in T1 as (ps & P1 & L1 & F1), T2 as (ps' & P2 & L2 & F2).
    rewrite (half_at_fun _ _ _ _ _ H1 A1), (half_at_fun _ _ _ _ _ H2 A2), (word_at_fun _ _ _ _ _ H3 W1),
      (word_at_fun _ _ _ _ _ H4 W2), (word_at_fun _ _ _ _ _ H5 W3).
    replace (negb (ma =? 0) && negb (ma =? 1)) with false by lia.
    replace (negb (mi =? 0) && negb (mi =? 1)) with false by lia.
    replace (read_table bo n (drop o c)) with (Some ps) by (symmetry; apply read_table_spec; split; [lia|exact P1]).
    replace (read_table bo n (drop t c)) with (Some ps') by (symmetry; apply read_table_spec; split; [lia|exact P2]).
    apply read_strings_spec; [lia|]. exists ids, strs. auto.
Qed.
Theorem read_mo_spec c f : read_mo c = MoOk f <->
  exists bo ids strs, stores bo c ids strs /\ f = catalog_of ids strs.
Proof.
  rewrite read_mo_with. split.
  - destruct (read_magic c) as [m|] eqn:E; [|discriminate].
    destruct (m =? mo_magic_big) eqn:E1; [|destruct (m =? mo_magic) eqn:E2; [|discriminate]]; intros H.
    + assert (m = mword BE) by (cbn [mword]; lia). subst m. apply order_word in E.
      destruct (proj1 (read_with_spec BE c f) (conj E H)) as (ids & strs & S & ->). exists BE, ids, strs. auto.
    + assert (m = mword LE) by (cbn [mword]; lia). subst m. apply order_word in E.
      destruct (proj1 (read_with_spec LE c f) (conj E H)) as (ids & strs & S & ->). exists LE, ids, strs. auto.
  - intros (bo & ids & strs & S & ->).
    destruct (proj2 (read_with_spec bo c (catalog_of ids strs))) as [M H]; [eauto|].
    apply order_word in M. rewrite M. destruct bo; exact H.
Qed.
Theorem read_mo_total c : (exists f, read_mo c = MoOk f) \/ read_mo c = MoErr.
Proof.
  rewrite read_mo_with. destruct (read_magic c) as [m|]; [|auto].
  destruct (m =? mo_magic_big); [|destruct (m =? mo_magic); [|auto]].
  - pose proof (read_with_total BE c). destruct (read_with BE c); eauto. congruence.
  - pose proof (read_with_total LE c). destruct (read_with LE c); eauto. congruence.
Qed.

(** ** What the strings mean *)
Lemma cut_at_byte_some c s a b : cut_at_byte c s = Some (a, b) <-> s = a ++ c :: b /\ ~ In c a.
Proof.
  unfold cut_at_byte. split.
  - destruct (index_byte c s) as [i|] eqn:E; [|discriminate]. intros [= <- <-].
    apply index_byte_some in E. destruct E as (E & N & _). rewrite Nat.add_1_r. split; [exact E|exact N].
  - intros [-> N]. rewrite index_byte_app by exact N.
    rewrite firstn_app, firstn_all, Nat.sub_diag, skipn_app. cbn [firstn]. rewrite app_nil_r.
    rewrite (skipn_all2 a) by lia. replace (length a + 1 - length a)%nat with 1%nat by lia. reflexivity.
Qed.
Lemma cut_at_byte_none c s : cut_at_byte c s = None <-> ~ In c s.
Proof.
  unfold cut_at_byte. destruct (index_byte c s) as [i|] eqn:E.
  - split; [discriminate|]. intros H. apply index_byte_some in E. destruct E as (E & _). exfalso. apply H.
    rewrite E. apply in_or_app. right. left. reflexivity.
  - split; [|reflexivity]. intros _. apply index_byte_none, E.
Qed.
Lemma existsb_in c s : existsb (Ascii.eqb c) s = true <-> In c s.
Proof.
  rewrite existsb_exists. split.
  - intros (x & H & E). apply Ascii.eqb_eq in E. subst. exact H.
  - intros H. exists c. split; [exact H|apply Ascii.eqb_refl].
Qed.
Lemma means_iff id str e : means id str e <-> e = mo_entry id str.
Proof.
  unfold means, mo_entry. split.
  - intros (C & id1 & H1 & H2).
    assert (Q : (match cut_at_byte EOT id with Some p => p | None => ([], id) end) = (e_ctxt e, id1)).
    { destruct (existsb (Ascii.eqb EOT) id) eqn:E.
      - destruct H1 as [H1 N1]. assert (P : cut_at_byte EOT id = Some (e_ctxt e, id1)) by (apply cut_at_byte_some; auto).
        rewrite P. reflexivity.
      - destruct H1 as [-> ->]. assert (P : cut_at_byte EOT id = None); [|rewrite P; reflexivity].
        apply cut_at_byte_none. rewrite <- existsb_in. congruence. }
    rewrite Q. destruct (existsb (Ascii.eqb NUL) id1) eqn:E.
    + destruct H2 as (-> & N & P & S & J & Ne & Ns).
      assert (R : cut_at_byte NUL (e_id e ++ NUL :: e_id2 e) = Some (e_id e, e_id2 e)) by (apply cut_at_byte_some; auto).
      rewrite R. rewrite <- J, split_join by assumption. destruct e; cbn in *. congruence.
    + destruct H2 as (P & I2 & Pl & S & Sn).
      assert (R : cut_at_byte NUL id1 = None) by (apply cut_at_byte_none; rewrite <- existsb_in; congruence).
      rewrite R. destruct e; cbn in *. congruence.
  - intros ->. destruct (cut_at_byte EOT id) as [[c id1]|] eqn:E.
    + apply cut_at_byte_some in E as [-> N1].
      assert (X : existsb (Ascii.eqb EOT) (c ++ EOT :: id1) = true)
        by (apply existsb_in, in_or_app; right; left; reflexivity). rewrite X.
      destruct (cut_at_byte NUL id1) as [[i i2]|] eqn:E2; cbn; (split; [reflexivity|]); exists id1; (split; [auto|]).
      * apply cut_at_byte_some in E2 as [-> N2].
        assert (Y : existsb (Ascii.eqb NUL) (i ++ NUL :: i2) = true)
          by (apply existsb_in, in_or_app; right; left; reflexivity). rewrite Y.
        repeat split; auto; [apply join_split|apply split_byte_nonempty|apply split_byte_pieces].
      * apply cut_at_byte_none in E2. destruct (existsb (Ascii.eqb NUL) id1) eqn:Y; [apply existsb_in in Y; tauto|].
        auto.
    + apply cut_at_byte_none in E.
      assert (X : existsb (Ascii.eqb EOT) id = false)
        by (destruct (existsb (Ascii.eqb EOT) id) eqn:Y; [apply existsb_in in Y; tauto|reflexivity]). rewrite X.
      destruct (cut_at_byte NUL id) as [[i i2]|] eqn:E2; cbn; (split; [reflexivity|]); exists id; (split; [auto|]).
      * apply cut_at_byte_some in E2 as [-> N2].
        assert (Y : existsb (Ascii.eqb NUL) (i ++ NUL :: i2) = true)
          by (apply existsb_in, in_or_app; right; left; reflexivity). rewrite Y.
        repeat split; auto; [apply join_split|apply split_byte_nonempty|apply split_byte_pieces].
      * apply cut_at_byte_none in E2. destruct (existsb (Ascii.eqb NUL) id) eqn:Y; [apply existsb_in in Y; tauto|].
        auto.
Qed.
Lemma eot_nul : EOT <> NUL. Proof. discriminate. Qed.
Lemma entry_back e : mo_ok e -> mo_entry (mo_id e) (mo_str e) = strip e.
Proof.
  intros (H1 & H2 & H3 & H4). symmetry. apply means_iff. unfold means, mo_id, mo_str. split; [reflexivity|].
  exists (e_id e ++ (if e_plural e then NUL :: e_id2 e else [])). cbn [strip e_ctxt e_id e_id2 e_plural e_str e_strn].
  split.
  - destruct (e_ctxt e) as [|x t] eqn:Ec; cbn [is_empty negb].
    + destruct H3 as [H3 H3']; [reflexivity|].
      match goal with |- context [existsb ?a ?b] => destruct (existsb a b) eqn:E end; [|auto]. exfalso.
      apply existsb_in in E. apply in_app_or in E as [E|E]; [auto|].
      destruct (e_plural e); [destruct E as [E|E]; [symmetry in E; exact (eot_nul E)|auto]|destruct E].
    + rewrite <- app_assoc. cbn [app].
      match goal with |- context [existsb ?a ?b] => assert (E : existsb a b = true) end.
      { apply existsb_in. apply in_or_app with (l := x :: t). right. left. reflexivity. }
      change (x :: t ++ EOT :: e_id e ++ (if e_plural e then NUL :: e_id2 e else []))
        with ((x :: t) ++ EOT :: e_id e ++ (if e_plural e then NUL :: e_id2 e else [])) in *.
      rewrite E. auto.
  - destruct (e_plural e).
    + assert (E : existsb (Ascii.eqb NUL) (e_id e ++ NUL :: e_id2 e) = true)
        by (apply existsb_in, in_or_app; right; left; reflexivity). rewrite E.
      destruct H4 as (S & Ne & Nn). repeat split; auto. destruct (e_strn e); [congruence|reflexivity].
    + destruct H4 as [I2 Sn]. rewrite app_nil_r, Sn, I2.
      destruct (existsb (Ascii.eqb NUL) (e_id e)) eqn:E; [apply existsb_in in E; tauto|]. auto.
Qed.

(** ** The writer *)
Lemma put32_len bo n : length (put32 bo n) = 4%nat.
Proof. destruct bo; reflexivity. Qed.
Lemma word32_put bo n x : n < 2 ^ 32 -> exists a b c d, put32 bo n ++ x = a :: b :: c :: d :: x /\ n = word32 bo a b c d.
Proof.
  intros H. destruct bo; unfold put32; cbn [rev app]; do 4 eexists; (split; [reflexivity|]); unfold word32;
    rewrite !code_byte_of by lia; cbn in H; lia.
Qed.
Lemma drop_app_len a b : drop (len a) (a ++ b) = b.
Proof.
  unfold len. rewrite drop_skipn, Nat2N.id, skipn_app, skipn_all, Nat.sub_diag. reflexivity.
Qed.
Lemma word_at_put bo a n b : n < 2 ^ 32 -> word_at bo (a ++ put32 bo n ++ b) (len a) n.
Proof.
  intros H. apply word_at_drop. rewrite drop_app_len. destruct (word32_put bo n b H) as (x & y & z & w & E & Q).
  exists x, y, z, w, b. auto.
Qed.
Lemma len_app a b : len (a ++ b) = len a + len b.
Proof. unfold len. rewrite app_length. lia. Qed.
Lemma len_put bo n : len (put32 bo n) = 4.
Proof. unfold len. rewrite put32_len. reflexivity. Qed.
Fixpoint packed (c : bytes) (p : N) (l : list bytes) (lo hi : N) : Prop :=
  match l with
  | [] => lo = hi
  | s :: r => word_at LE c p (len s) /\ word_at LE c (p + 4) lo /\ bytes_at c lo (s ++ [NUL])
              /\ packed c (p + 8) r (lo + len s + 1) hi
  end.
Lemma write_table_app off s r : write_table off (s :: r) =
  (put32 LE (len s) ++ put32 LE off ++ fst (write_table (off + len s + 1) r), snd (write_table (off + len s + 1) r)).
Proof. cbn [write_table]. destruct (write_table (off + len s + 1) r). reflexivity. Qed.
Lemma write_table_snd : forall l off, snd (write_table off l) = off + len (write_strings l).
Proof.
  induction l as [|s r IH]; intros off; [unfold write_strings, len; cbn [write_table snd map concat length]; lia|].
  rewrite write_table_app. cbn [snd]. rewrite IH. unfold write_strings. cbn [map concat]. rewrite !len_app.
  change (len [NUL]) with 1. lia.
Qed.
Lemma write_table_len : forall l off, len (fst (write_table off l)) = 8 * N.of_nat (length l).
Proof.
  induction l as [|s r IH]; intros off; [reflexivity|].
  rewrite write_table_app. cbn [fst length]. rewrite !len_app, IH, !len_put. lia.
Qed.
Lemma packed_write : forall l off c pre mid post,
  c = pre ++ fst (write_table off l) ++ mid ++ write_strings l ++ post ->
  off = len (pre ++ fst (write_table off l) ++ mid) -> off + len (write_strings l) < 2 ^ 32 ->
  packed c (len pre) l off (off + len (write_strings l)).
Proof.
  induction l as [|s r IH]; intros off c pre mid post Ec Eo Eb.
  - unfold packed, write_strings, len. cbn [map concat length]. lia.
  - rewrite write_table_app in Ec, Eo. cbn [fst] in Ec, Eo. set (t := fst (write_table (off + len s + 1) r)) in *.
    assert (Ew : write_strings (s :: r) = s ++ [NUL] ++ write_strings r)
      by (unfold write_strings; cbn [map concat]; rewrite <- app_assoc; reflexivity).
    rewrite Ew in *. rewrite !len_app in Eb. change (len [NUL]) with 1 in Eb.
    cbn [packed]. split; [|split; [|split]].
    + rewrite Ec, <- !app_assoc. apply word_at_put. lia.
    + replace (len pre + 4) with (len (pre ++ put32 LE (len s))) by (rewrite len_app, len_put; reflexivity).
      rewrite Ec, <- !app_assoc, app_assoc. apply word_at_put. lia.
    + exists (pre ++ (put32 LE (len s) ++ put32 LE off ++ t) ++ mid), (write_strings r ++ post).
      split; [rewrite Ec, <- !app_assoc; reflexivity|]. symmetry. exact Eo.
    + replace (len pre + 8) with (len (pre ++ put32 LE (len s) ++ put32 LE off)) by (rewrite !len_app, !len_put; lia).
      replace (off + len (s ++ [NUL] ++ write_strings r)) with ((off + len s + 1) + len (write_strings r))
        by (rewrite !len_app; change (len [NUL]) with 1; lia).
      apply (IH _ _ _ (mid ++ s ++ [NUL]) post).
      * rewrite Ec. fold t. rewrite <- !app_assoc. reflexivity.
      * fold t. rewrite !len_app, !len_put in Eo. rewrite !len_app, !len_put. change (len [NUL]) with 1. lia.
      * lia.
Qed.
Lemma packed_app c : forall l1 l2 p lo m hi,
  packed c p l1 lo m -> packed c (p + 8 * N.of_nat (length l1)) l2 m hi -> packed c p (l1 ++ l2) lo hi.
Proof.
  induction l1 as [|s r IH]; intros l2 p lo m hi H1 H2.
  - cbn [packed app length] in *. subst. replace (p + 8 * N.of_nat 0) with p in H2 by lia. exact H2.
  - cbn [packed app] in *. destruct H1 as (A & B & C & D). repeat split; auto. apply (IH _ _ _ m); [exact D|].
    replace (p + 8 + 8 * N.of_nat (length r)) with (p + 8 * N.of_nat (length (s :: r))) by (cbn [length]; lia). exact H2.
Qed.
Lemma packed_le c : forall l p lo hi, packed c p l lo hi -> lo <= hi.
Proof.
  induction l as [|s r IH]; intros p lo hi H; cbn [packed] in H; [lia|]. destruct H as (_ & _ & _ & H).
  apply IH in H. lia.
Qed.
Lemma packed_nth c : forall l p lo hi i s, packed c p l lo hi -> nth_error l i = Some s ->
  exists off, table_entry c p i (len s) off /\ bytes_at c off (s ++ [NUL]) /\ lo <= off /\ off + len s < hi.
Proof.
  unfold table_entry. induction l as [|x r IH]; intros p lo hi i s H E; [destruct i; discriminate|].
  cbn [packed] in H. destruct H as (A & B & C & D). destruct i as [|i].
  - injection E as ->. exists lo. replace (p + 8 * N.of_nat 0) with p by lia. pose proof (packed_le _ _ _ _ _ D).
    repeat split; auto; lia.
  - destruct (IH _ _ _ _ _ D E) as (off & (E1 & E2) & E3 & E4 & E5). exists off.
    replace (p + 8 * N.of_nat (S i)) with (p + 8 + 8 * N.of_nat i) by lia. repeat split; auto; lia.
Qed.
Lemma packed_disjoint c : forall l p lo hi i j s s' off off', packed c p l lo hi -> (i < j)%nat ->
  nth_error l i = Some s -> nth_error l j = Some s' ->
  table_entry c p i (len s) off -> table_entry c p j (len s') off' -> off + len s < off'.
Proof.
  unfold table_entry.
  induction l as [|x r IH]; intros p lo hi i j s s' off off' H L E E' T T'; [destruct i; discriminate|].
  cbn [packed] in H. destruct H as (A & B & C & D). destruct j as [|j]; [lia|]. cbn [nth_error] in E'.
  replace (p + 8 * N.of_nat (S j)) with (p + 8 + 8 * N.of_nat j) in T' by lia. destruct i as [|i].
  - injection E as ->. replace (p + 8 * N.of_nat 0) with p in T by lia.
    pose proof (word_at_fun _ _ _ _ _ B (proj2 T)). subst off.
    destruct (packed_nth _ _ _ _ _ _ _ D E') as (o & (_ & Q) & _ & Le & _).
    pose proof (word_at_fun _ _ _ _ _ Q (proj2 T')). subst o. lia.
  - cbn [nth_error] in E. replace (p + 8 * N.of_nat (S i)) with (p + 8 + 8 * N.of_nat i) in T by lia.
    apply (IH _ _ _ i j s s' off off' D); auto; lia.
Qed.
Lemma packed_table c : forall l p lo hi, packed c p l lo hi -> table_at LE c p l.
Proof.
  induction l as [|s r IH]; intros p lo hi H; cbn [packed table_at] in *; [exact I|].
  destruct H as (A & B & C & D). split; [exact A|]. split; [|apply (IH _ _ _ D)]. exists lo. split; [exact B|]. right.
  destruct C as (a & b & -> & L). exists a, ([NUL] ++ b). rewrite <- !app_assoc. auto.
Qed.
Definition body (l : list entry) : bytes := write_strings (map mo_id l) ++ write_strings (map mo_str l).
Lemma header_len n : len (write_mo_header n) = offset_o.
Proof. unfold write_mo_header. rewrite !len_app, !len_put. reflexivity. Qed.
Lemma mo_bytes_eq l : mo_bytes l =
  let n := N.of_nat (length l) in let off := offset_o + n * 8 * 2 in
  write_mo_header n ++ fst (write_table off (map mo_id l))
  ++ fst (write_table (off + len (write_strings (map mo_id l))) (map mo_str l)) ++ body l.
Proof.
  unfold mo_bytes, body. set (n := N.of_nat (length l)). cbn zeta. rewrite <- write_table_snd.
  destruct (write_table (offset_o + n * 8 * 2) (map mo_id l)) as [t1 o1]. cbn [fst snd].
  destruct (write_table o1 (map mo_str l)) as [t2 o2]. reflexivity.
Qed.
Lemma mo_bytes_len l : len (mo_bytes l) = offset_o + 16 * N.of_nat (length l) + len (body l).
Proof.
  rewrite mo_bytes_eq. cbn zeta. rewrite !len_app, header_len, !write_table_len, !map_length. lia.
Qed.
Lemma mo_packed l : len (mo_bytes l) < 2 ^ 32 ->
  let n := N.of_nat (length l) in
  packed (mo_bytes l) 75 (map mo_id l ++ map mo_str l) (75 + 16 * n) (len (mo_bytes l)).
Proof.
  intros H n. pose proof (mo_bytes_len l) as L. unfold body in L. rewrite len_app in L. change offset_o with 75 in L. fold n in L.
  pose proof (mo_bytes_eq l) as E. cbn zeta in E. fold n in E. unfold body in E. change offset_o with 75 in E.
  set (off := 75 + n * 8 * 2) in *. set (w1 := write_strings (map mo_id l)) in *. set (w2 := write_strings (map mo_str l)) in *.
  set (t1 := fst (write_table off (map mo_id l))) in *.
  set (t2 := fst (write_table (off + len w1) (map mo_str l))) in *.
  assert (L1 : len t1 = 8 * n) by (unfold t1; rewrite write_table_len, map_length; reflexivity).
  assert (L2 : len t2 = 8 * n) by (unfold t2; rewrite write_table_len, map_length; reflexivity).
  pose proof (header_len n) as Lh. change offset_o with 75 in Lh.
  apply (packed_app _ _ _ _ _ (off + len w1)).
  - replace (75 + 16 * n) with off by lia. rewrite <- Lh.
    apply (packed_write _ _ _ _ t2 w2); fold w1; fold t1.
    + exact E.
    + rewrite !len_app, Lh, L1, L2. lia.
    + lia.
  - replace (75 + 8 * N.of_nat (length (map mo_id l))) with (len (write_mo_header n ++ t1))
      by (rewrite len_app, Lh, L1, map_length; reflexivity).
    replace (len (mo_bytes l)) with (off + len w1 + len w2) by lia.
    apply (packed_write _ _ _ _ w1 []); fold w2; fold t2.
    + rewrite app_nil_r, E, <- !app_assoc. reflexivity.
    + rewrite !len_app, Lh, L1, L2. lia.
    + lia.
Qed.
Lemma mo_header_words l : len (mo_bytes l) < 2 ^ 32 ->
  let n := N.of_nat (length l) in let c := mo_bytes l in
  word_at LE c 0 0x950412de /\ word_at LE c 4 0 /\ word_at LE c 8 n /\ word_at LE c 12 75
  /\ word_at LE c 16 (75 + 8 * n) /\ word_at LE c 20 0 /\ word_at LE c 24 0.
Proof.
  intros H n c. pose proof (mo_bytes_len l) as L. change offset_o with 75 in L. fold n in L.
  unfold c. rewrite mo_bytes_eq. cbn zeta. fold n.
  match goal with |- context [write_mo_header n ++ ?x] => generalize x; intros r end.
  unfold write_mo_header. rewrite <- !app_assoc.
  replace (offset_o + n * 8) with (75 + 8 * n) by (unfold offset_o, flag_len; lia).
  assert (Q : forall a m b p, m < 2 ^ 32 -> p = len a -> word_at LE (a ++ put32 LE m ++ b) p m)
    by (intros a m b p Hm ->; apply word_at_put, Hm).
  split; [apply (Q [] mo_magic); reflexivity|].
  split; [apply (Q (put32 LE mo_magic) 0); reflexivity|].
  split; [rewrite app_assoc; apply (Q (put32 LE mo_magic ++ put32 LE 0) n); [lia|reflexivity]|].
  split; [rewrite 2!app_assoc; apply (Q _ 75); [lia|rewrite !len_app, !len_put; reflexivity]|].
  split; [rewrite 3!app_assoc; apply (Q _ (75 + 8 * n)); [lia|rewrite !len_app, !len_put; reflexivity]|].
  split; [rewrite 4!app_assoc; apply (Q _ 0); [lia|rewrite !len_app, !len_put; reflexivity]|].
  rewrite 5!app_assoc; apply (Q _ 0); [lia|rewrite !len_app, !len_put; reflexivity].
Qed.
Lemma table_app bo c : forall l1 l2 p, table_at bo c p (l1 ++ l2) <->
  table_at bo c p l1 /\ table_at bo c (p + 8 * N.of_nat (length l1)) l2.
Proof.
  induction l1 as [|s r IH]; intros l2 p; cbn [app table_at].
  - replace (p + 8 * N.of_nat (length (@nil bytes))) with p by (cbn [length]; lia). tauto.
  - rewrite IH. replace (p + 8 + 8 * N.of_nat (length r)) with (p + 8 * N.of_nat (length (s :: r))) by (cbn [length]; lia).
    tauto.
Qed.
Theorem mo_stores l : len (mo_bytes l) < 2 ^ 32 -> stores LE (mo_bytes l) (map mo_id l) (map mo_str l).
Proof.
  intros H. pose proof (mo_header_words l H) as (W0 & W4 & W8 & W12 & W16 & W20 & W24).
  pose proof (mo_packed l H) as P. cbn zeta in *. apply packed_table, table_app in P as [P1 P2]. rewrite map_length in P2.
  split; [exact W0|]. split; [|split].
  - exists 0, 0. apply word_at_drop in W4 as (b0 & b1 & b2 & b3 & r & D & E).
    pose proof (code_lt b0). pose proof (code_lt b1). pose proof (code_lt b2). pose proof (code_lt b3).
    rewrite !half_at_drop. unfold word32 in E. repeat split; try lia.
    + exists b0, b1, (b2 :: b3 :: r). split; [exact D|]. unfold word16. lia.
    + exists b2, b3, r. split; [|unfold word16; lia]. change 6 with (4 + 2). rewrite <- drop_drop, D. reflexivity.
  - exists (N.of_nat (length l)), 75, (75 + 8 * N.of_nat (length l)). rewrite !map_length. auto 10.
  - pose proof (mo_bytes_len l) as L. change offset_o with 75 in L. unfold len in L. lia.
Qed.

(** ** Deciding the format, for examples *)
Definition wordb (bo : border) (c : bytes) (p : N) : option N :=
  match drop p c with a :: b :: x :: y :: _ => Some (word32 bo a b x y) | _ => None end.
Lemma wordb_ok bo c p v : wordb bo c p = Some v -> word_at bo c p v.
Proof.
  unfold wordb. rewrite word_at_drop. destruct (drop p c) as [|a [|b [|x [|y r]]]] eqn:E; try discriminate.
  intros H. exists a, b, x, y, r. split; [reflexivity|]. congruence.
Qed.
Fixpoint tableb (bo : border) (c : bytes) (p : N) (l : list bytes) : bool :=
  match l with
  | [] => true
  | s :: r =>
      match wordb bo c p, wordb bo c (p + 4) with
      | Some n, Some off => match read_str c (n, off) with Some x => beq x s | None => false end && tableb bo c (p + 8) r
      | _, _ => false
      end
  end.
Lemma tableb_ok bo c : forall l p, tableb bo c p l = true -> table_at bo c p l.
Proof.
  induction l as [|s r IH]; intros p H; cbn [tableb table_at] in *; [exact I|].
  destruct (wordb bo c p) as [n|] eqn:E1; [|discriminate]. destruct (wordb bo c (p + 4)) as [off|] eqn:E2; [|discriminate].
  destruct (read_str c (n, off)) as [x|] eqn:E3; [|discriminate]. apply andb_prop in H as [H1 H2]. apply beq_eq in H1. subst x.
  apply read_str_spec in E3 as [-> E3]. apply wordb_ok in E1, E2.
  split; [exact E1|]. split; [exists off; auto|apply IH, H2].
Qed.
Definition storesb (bo : border) (c : bytes) (ids strs : list bytes) : bool :=
  match wordb bo c 0, wordb bo c 4, wordb bo c 8, wordb bo c 12, wordb bo c 16, wordb bo c 24 with
  | Some m, Some v, Some n, Some o, Some t, Some _ =>
      (m =? 0x950412de) && (v =? 0) && (n =? N.of_nat (length ids)) && (n =? N.of_nat (length strs))
      && tableb bo c o ids && tableb bo c t strs
  | _, _, _, _, _, _ => false
  end.
Lemma storesb_ok bo c ids strs : storesb bo c ids strs = true -> stores bo c ids strs.
Proof.
  unfold storesb. destruct (wordb bo c 0) as [m|] eqn:E0; [|discriminate]. destruct (wordb bo c 4) as [v|] eqn:E4; [|discriminate].
  destruct (wordb bo c 8) as [n|] eqn:E8; [|discriminate]. destruct (wordb bo c 12) as [o|] eqn:E12; [|discriminate].
  destruct (wordb bo c 16) as [t|] eqn:E16; [|discriminate]. destruct (wordb bo c 24) as [h|] eqn:E24; [|discriminate].
  intros H. apply andb_prop in H as [H H6]. apply andb_prop in H as [H H5]. apply andb_prop in H as [H H4].
  apply andb_prop in H as [H H3]. apply andb_prop in H as [H1 H2].
  apply N.eqb_eq in H1, H2, H3, H4. subst m v.
  apply wordb_ok in E0, E4, E8, E12, E16, E24. split; [exact E0|]. split; [|split].
  - exists 0, 0. apply word_at_drop in E4 as (b0 & b1 & b2 & b3 & r & D & E).
    pose proof (code_lt b0). pose proof (code_lt b1). pose proof (code_lt b2). pose proof (code_lt b3).
    rewrite !half_at_drop. unfold word32 in E. repeat split; try lia.
    + exists b0, b1, (b2 :: b3 :: r). split; [exact D|]. unfold word16. destruct bo; lia.
    + exists b2, b3, r. split; [|unfold word16; destruct bo; lia]. change 6 with (4 + 2). rewrite <- drop_drop, D. reflexivity.
  - exists n, o, t. auto 10 using tableb_ok.
  - apply word_at_drop in E24 as (b0 & b1 & b2 & b3 & r & D & _). rewrite drop_skipn in D.
    assert (L : length (skipn (N.to_nat 24) c) = S (S (S (S (length r))))) by (rewrite D; reflexivity).
    rewrite skipn_length in L. lia.
Qed.
