(** Function names and whole runs of xtemplate. *)
From Coq Require Import Lia ZifyBool ZifyNat ZifyN Permutation Sorted.
From Verif Require Import GoStr GoStrFacts GoMap GoMapFacts GoRegex GoRegexFacts FileModel FileFacts PoModel PoSpec PoCatalogFacts
  BlankSpec BlankFacts XtModel XtSpec XtKeyFacts XtFacts XtMergeFacts.
Local Open Scope Z_scope.

(** ** Identifiers *)
Lemma re_alpha_iff c : re_alpha c = true <-> alpha c.
Proof.
  unfold re_alpha, alpha, in_range. rewrite !Bool.orb_true_iff, !Bool.andb_true_iff, !N.leb_le, Ascii.eqb_eq. tauto.
Qed.
Lemma re_word_iff c : re_word c = true <-> wordchar c.
Proof.
  unfold re_word, wordchar, is_digit, in_range. rewrite Bool.orb_true_iff, Bool.andb_true_iff, !N.leb_le, re_alpha_iff. tauto.
Qed.
Lemma re_word_false c : ~ wordchar c <-> re_word c = false.
Proof. rewrite <- re_word_iff. destruct (re_word c); split; congruence. Qed.
Lemma rx_ident c t b : alpha c -> (forall x, In x t -> wordchar x) -> (forall d x, b = d :: x -> ~ wordchar d) ->
  rx re_ident (c :: t ++ b) = Some ([[c]; t], b).
Proof.
  intros A W Bb. unfold re_ident. apply rx_one; [apply re_alpha_iff, A|].
  apply (rx_star_stop re_word [] t b [] b).
  - apply forallb_forall. intros x Hx. apply re_word_iff, W, Hx.
  - intros d x E. apply re_word_false, (Bb d x E).
  - reflexivity.
Qed.
Lemma rx_ident_inv s m u : rx re_ident s = Some (m, u) -> exists c t, m = [[c]; t] /\ s = c :: t ++ u /\ alpha c
  /\ (forall x, In x t -> wordchar x) /\ (forall d x, u = d :: x -> ~ wordchar d).
Proof.
  destruct s as [|c s]; [discriminate|]. intros H.
  destruct (re_alpha c) eqn:A.
  2:{ unfold re_ident in H. cbn [rx] in H. rewrite A in H. discriminate. }
  (* the longest run of word characters *)
  assert (exists t b, s = t ++ b /\ (forall x, In x t -> wordchar x) /\ (forall d x, b = d :: x -> ~ wordchar d)) as (t & b & -> & W & Nb).
  { clear. induction s as [|d s IH].
    - exists [], []. split; [reflexivity|]. split; [intros x []|discriminate].
    - destruct (re_word d) eqn:D.
      + destruct IH as (t & b & -> & W & Nb). exists (d :: t), b. split; [reflexivity|]. split; [|exact Nb].
        intros x [<-|Hx]; [apply re_word_iff, D|auto].
      + exists [], (d :: s). split; [reflexivity|]. split; [intros x []|]. intros e x E. assert (d = e) by congruence. subst. apply re_word_false, D. }
  apply re_alpha_iff in A. rewrite (rx_ident c t b A W Nb) in H.
  assert (m = [[c]; t] /\ b = u) as [-> <-] by (split; congruence). exists c, t. auto.
Qed.
Lemma rx_ident_none s : rx re_ident s = None <-> forall c t, s = c :: t -> ~ alpha c.
Proof.
  split.
  - intros H c t -> A. unfold re_ident in H. cbn [rx] in H. rewrite (proj2 (re_alpha_iff c) A) in H.
    assert (X : rx [IStar true re_word] t <> None).
    { apply (rx_star_some true re_word [] [] t); [reflexivity|discriminate]. }
    destruct (rx [IStar true re_word] t) as [[m u]|] eqn:E; [|congruence].
    cbn [rx] in E. rewrite E in H. discriminate.
  - intros H. destruct s as [|c t]; [reflexivity|]. unfold re_ident. cbn [rx].
    destruct (re_alpha c) eqn:A; [|reflexivity]. apply re_alpha_iff in A. exfalso. exact (H c t eq_refl A).
Qed.
(** what is found: [a]: what was read before *)
Lemma find_sound fuel : forall s m, In m (find_all_from fuel re_ident s) ->
  identifier (concat m) /\ exists a b, s = a ++ concat m ++ b /\ (forall d x, b = d :: x -> ~ wordchar d).
Proof.
  induction fuel as [|n IH]; intros s m; cbn [find_all_from]; [intros []|].
  destruct (rx re_ident s) as [[m' u]|] eqn:R.
  - destruct (rx_ident_inv s m' u R) as (c & t & -> & -> & A & W & Nu).
    assert (I0 : identifier (concat [[c]; t]) /\ exists a b, c :: t ++ u = a ++ concat [[c]; t] ++ b /\ (forall d x, b = d :: x -> ~ wordchar d)).
    { cbn [concat app]. rewrite app_nil_r. split; [exists c, t; auto|]. exists [], u. auto. }
    destruct (Nat.ltb_spec (length u) (length (c :: t ++ u))) as [L|L].
    + intros [<-|H]; [exact I0|]. apply IH in H as [H1 (a & b & E & Nb)]. split; [exact H1|].
      exists ((c :: t) ++ a), b. split; [|exact Nb]. rewrite E. rewrite <- !app_assoc. reflexivity.
    + cbn [length] in L. rewrite app_length in L. lia.
  - destruct s as [|c t]; [intros []|]. intros H. apply IH in H as [H1 (a & b & -> & Nb)]. split; [exact H1|].
    exists (c :: a), b. auto.
Qed.
Lemma find_complete fuel : forall s name, (length s < fuel)%nat -> identifier name -> stands_in s name ->
  In name (map (@concat ascii) (find_all_from fuel re_ident s)).
Proof.
  induction fuel as [|n IH]; intros s name Lf I (a & b & -> & Na & Nb); [lia|]. cbn [find_all_from].
  destruct I as (c & t & -> & A & W).
  destruct (rx re_ident (a ++ (c :: t) ++ b)) as [[m u]|] eqn:R.
  - destruct (rx_ident_inv _ _ _ R) as (c' & t' & -> & E & A' & W' & Nu).
    destruct (Nat.ltb_spec (length u) (length (a ++ (c :: t) ++ b))) as [L|L].
    2:{ rewrite E in L. cbn [length] in L. rewrite app_length in L. lia. }
    cbn [map]. cbn [concat app]. rewrite app_nil_r.
    destruct a as [|a0 a].
    + cbn [app] in E. assert (Ec : c = c') by congruence. subst c'.
      assert (E' : t ++ b = t' ++ u) by congruence.
      left. f_equal. clear - E' W W' Nb Nu. revert t' W' E'. induction t as [|x t IHt]; intros t' W' E'.
      * destruct t' as [|y t']; [reflexivity|]. cbn [app] in E'. exfalso.
        exact (Nb y (t' ++ u) E' (W' y (or_introl eq_refl))).
      * destruct t' as [|y t'].
        -- cbn [app] in E'. exfalso. exact (Nu x (t ++ b) (eq_sym E') (W x (or_introl eq_refl))).
        -- cbn [app] in E'. assert (x = y) by congruence. subst y. f_equal.
           apply IHt; [intros z Hz; apply W; right; exact Hz|intros z Hz; apply W'; right; exact Hz|congruence].
    + right. apply IH.
      * rewrite E in Lf. cbn [length] in Lf. rewrite app_length in Lf. lia.
      * exists c, t. auto.
      * (* the match ends inside a *)
        cbn [app] in E. assert (Ec : a0 = c') by congruence. subst c'.
        assert (E' : a ++ c :: t ++ b = t' ++ u) by congruence.
        destruct (app_cases a (c :: t ++ b) t' u E') as [(v & Ea & Eu)|(v & Hv & Et & Eb)].
        -- exists v, b. split; [exact Eu|]. split; [|exact Nb]. intros x d ->. apply (Na (a0 :: t' ++ x) d). rewrite Ea.
           cbn [app]. rewrite <- app_assoc. reflexivity.
        -- exfalso. (* t' contains all of a and c: then the byte before c is a word character *)
           assert (Wa : forall x, In x (a0 :: a) -> wordchar x).
           { intros x [<-|Hx]; [left; exact A'|]. apply W'. rewrite Et. apply in_or_app. left; exact Hx. }
           destruct (exists_last (l := a0 :: a)) as (x & d & Ex); [discriminate|].
           apply (Na x d Ex). apply Wa. rewrite Ex. apply in_or_app. right; left; reflexivity.
  - destruct a as [|a0 a].
    + exfalso. exact (proj1 (rx_ident_none _) R c (t ++ b) eq_refl A).
    + cbn [app]. apply IH.
      * cbn [app length] in Lf. lia.
      * exists c, t. auto.
      * exists a, b. split; [reflexivity|]. split; [|exact Nb]. intros x d ->. apply (Na (a0 :: x) d). reflexivity.
Qed.
(** exactly what is found *)
Definition fresh (a : bytes) : Prop := exists x ds, a = x ++ ds /\ ~ ends_word x /\ forall c, In c ds -> (48 <= code c <= 57)%N.
Lemma fresh_nil : fresh [].
Proof. exists [], []. split; [reflexivity|]. split; [|intros c []]. intros (x & c & E & _). destruct x; discriminate. Qed.
Lemma fresh_other a c : ~ wordchar c -> fresh (a ++ [c]).
Proof.
  intros N. exists (a ++ [c]), []. split; [symmetry; apply app_nil_r|]. split; [|intros d []].
  intros (x & d & E & W). apply app_inj_tail in E as [_ <-]. contradiction.
Qed.
Lemma fresh_digit a c : fresh a -> (48 <= code c <= 57)%N -> fresh (a ++ [c]).
Proof.
  intros (x & ds & -> & N & D) C. exists x, (ds ++ [c]). split; [symmetry; apply app_assoc|]. split; [exact N|].
  intros d H. apply in_app_or in H as [H|[<-|[]]]; auto.
Qed.
Lemma fresh_suffix p v : fresh (p ++ v) -> fresh v.
Proof.
  intros (x & ds & E & N & D). destruct (app_cases _ _ _ _ E) as [(w & Ep & Ev)|(w & Hw & Ep & Ev)].
  - exists [], v. split; [reflexivity|]. split; [intros (y & c & Ey & _); destruct y; discriminate|].
    intros c Hc. apply D. rewrite Ev. apply in_or_app. right. exact Hc.
  - exists w, ds. split; [exact Ev|]. split; [|exact D]. intros (y & c & -> & W). apply N. exists (p ++ y), c. split; [|exact W].
    rewrite Ep. apply app_assoc.
Qed.
Lemma fresh_word c a : fresh (c :: a) -> (forall x, In x (c :: a) -> wordchar x) -> ~ alpha c.
Proof.
  intros (x & ds & E & N & D) W. destruct x as [|y x].
  - cbn [app] in E. assert (C : In c ds) by (rewrite <- E; left; reflexivity). apply D in C. unfold alpha.
    intros [H|H]; [lia|]. subst c. revert C. vm_compute. intros [H1 H2]. congruence.
  - exfalso. apply N. destruct (exists_last (l := y :: x)) as (z & d & Ez); [discriminate|]. exists z, d. split; [exact Ez|].
    apply W. rewrite E, Ez. apply in_or_app. left. apply in_or_app. right; left; reflexivity.
Qed.
Lemma find_sound_fresh fuel : forall s m p, In m (find_all_from fuel re_ident s) ->
  fresh p \/ (forall d x, s = d :: x -> ~ wordchar d) ->
  exists a b, s = a ++ concat m ++ b /\ fresh (p ++ a) /\ (forall d x, b = d :: x -> ~ wordchar d).
Proof.
  induction fuel as [|n IH]; intros s m p; cbn [find_all_from]; [intros []|].
  destruct (rx re_ident s) as [[m' u]|] eqn:R.
  - destruct (rx_ident_inv s m' u R) as (c & t & -> & -> & A & W & Nu).
    intros H F.
    assert (Fp : fresh p) by (destruct F as [F|F]; [exact F|]; exfalso; exact (F c (t ++ u) eq_refl (or_introl A))).
    destruct (Nat.ltb_spec (length u) (length (c :: t ++ u))) as [L|L].
    2:{ cbn [length] in L. rewrite app_length in L. lia. }
    destruct H as [<-|H].
    + exists [], u. cbn [concat app]. rewrite !app_nil_r. auto.
    + destruct (IH u m (p ++ c :: t) H (or_intror Nu)) as (a & b & E & Fa & Nb).
      exists ((c :: t) ++ a), b. split; [rewrite E, <- !app_assoc; reflexivity|]. split; [|exact Nb].
      rewrite app_assoc. exact Fa.
  - destruct s as [|c t]; [intros []|]. intros H F.
    assert (F' : fresh (p ++ [c])).
    { destruct (re_word c) eqn:Wc.
      - apply re_word_iff in Wc. destruct F as [F|F]; [|exfalso; exact (F c t eq_refl Wc)].
        destruct Wc as [Wc|Wc]; [exfalso; exact (proj1 (rx_ident_none _) R c t eq_refl Wc)|]. apply fresh_digit; assumption.
      - apply fresh_other. rewrite <- re_word_iff. congruence. }
    destruct (IH t m (p ++ [c]) H (or_introl F')) as (a & b & -> & Fa & Nb).
    exists (c :: a), b. split; [reflexivity|]. split; [|exact Nb]. rewrite <- app_assoc in Fa. exact Fa.
Qed.
Lemma find_complete_fresh fuel : forall a name b, (length (a ++ name ++ b) < fuel)%nat -> identifier name -> fresh a ->
  (forall c x, b = c :: x -> ~ wordchar c) -> In name (map (@concat ascii) (find_all_from fuel re_ident (a ++ name ++ b))).
Proof.
  induction fuel as [|n IH]; intros a name b Lf I Na Nb; [lia|]. cbn [find_all_from].
  pose proof I as (c & t & -> & A & W).
  destruct (rx re_ident (a ++ (c :: t) ++ b)) as [[m u]|] eqn:R.
  - destruct (rx_ident_inv _ _ _ R) as (c' & t' & -> & E & A' & W' & Nu).
    destruct (Nat.ltb_spec (length u) (length (a ++ (c :: t) ++ b))) as [L|L].
    2:{ rewrite E in L. cbn [length] in L. rewrite app_length in L. lia. }
    cbn [map]. cbn [concat app]. rewrite app_nil_r.
    destruct a as [|a0 a].
    + cbn [app] in E. assert (Ec : c = c') by congruence. subst c'.
      assert (E' : t ++ b = t' ++ u) by congruence.
      left. f_equal. clear - E' W W' Nb Nu. revert t' W' E'. induction t as [|x t IHt]; intros t' W' E'.
      * destruct t' as [|y t']; [reflexivity|]. cbn [app] in E'. exfalso.
        exact (Nb y (t' ++ u) E' (W' y (or_introl eq_refl))).
      * destruct t' as [|y t'].
        -- cbn [app] in E'. exfalso. exact (Nu x (t ++ b) (eq_sym E') (W x (or_introl eq_refl))).
        -- cbn [app] in E'. assert (x = y) by congruence. subst y. f_equal.
           apply IHt; [intros z Hz; apply W; right; exact Hz|intros z Hz; apply W'; right; exact Hz|congruence].
    + right. cbn [app] in E. assert (Ec : a0 = c') by congruence. subst c'.
      assert (E' : a ++ c :: t ++ b = t' ++ u) by congruence.
      destruct (app_cases a (c :: t ++ b) t' u E') as [(v & Ea & Eu)|(v & Hv & Et & Eb)].
      * rewrite Eu. apply (IH v (c :: t) b); [|exact I| |exact Nb].
        -- subst u a. clear - Lf. cbn [app length] in Lf |- *. rewrite !app_length in *. cbn [length] in *. rewrite app_length in *. lia.
        -- apply (fresh_suffix (a0 :: t')). cbn [app]. rewrite <- Ea. exact Na.
      * exfalso. apply (fresh_word a0 a Na); [|exact A'].
        intros x [<-|Hx]; [left; exact A'|]. apply W'. rewrite Et. apply in_or_app. left; exact Hx.
  - destruct a as [|a0 a].
    + exfalso. exact (proj1 (rx_ident_none _) R c (t ++ b) eq_refl A).
    + cbn [app]. apply (IH a (c :: t) b); [|exact I| |exact Nb].
      * cbn [app length] in Lf |- *. lia.
      * exact (fresh_suffix [a0] a Na).
Qed.
Lemma not_builtin n : negb (existsb (beq n) template_builtins) = true <-> ~ In n template_builtins.
Proof.
  rewrite Bool.negb_true_iff. split.
  - intros H I. assert (X : existsb (beq n) template_builtins = true) by (apply existsb_exists; exists n; split; [exact I|apply beq_refl]). congruence.
  - intros H. destruct (existsb (beq n) template_builtins) eqn:E; [|reflexivity]. apply existsb_exists in E as (x & I & E).
    apply beq_eq in E. subst. tauto.
Qed.
Lemma builtin_word n : In n template_builtins <-> template_word n.
Proof.
  unfold template_word. replace (split_byte SP _) with [B "block"; B "break"; B "continue"; B "define"; B "else"; B "end"; B "if"; B "range"; B "template"; B "with"] by reflexivity.
  unfold template_builtins. cbn [In]. tauto.
Qed.
Theorem scan_complete src name : identifier name -> stands_in src name -> ~ In name template_builtins -> In name (scan_func_names src).
Proof.
  intros I S N. unfold scan_func_names. apply filter_In. split; [|apply not_builtin, N].
  apply find_complete; [lia|exact I|exact S].
Qed.
Theorem scan_sound src name : In name (scan_func_names src) -> identifier name /\ ~ In name template_builtins
  /\ exists a b, src = a ++ name ++ b /\ (forall d x, b = d :: x -> ~ wordchar d).
Proof.
  unfold scan_func_names. intros H. apply filter_In in H as [H N]. apply not_builtin in N.
  apply in_map_iff in H as (m & <- & H). apply find_sound in H as [H1 H2]. auto.
Qed.
Theorem scan_exactly src name : In name (scan_func_names src) <-> identifier name /\ ~ template_word name /\ found_in src name.
Proof.
  split.
  - intros H. destruct (scan_sound _ _ H) as (I & N & _). split; [exact I|]. split; [rewrite <- builtin_word; exact N|].
    unfold scan_func_names in H. apply filter_In in H as [H _]. apply in_map_iff in H as (m & <- & H).
    destruct (find_sound_fresh _ _ _ [] H (or_introl fresh_nil)) as (a & b & -> & (x & ds & E & Nx & D) & Nb).
    cbn [app] in E. subst a. exists x, ds, b. rewrite <- app_assoc. auto.
  - intros (I & N & a & ds & b & -> & Na & D & Nb). unfold scan_func_names. apply filter_In. split; [|apply not_builtin; rewrite builtin_word; exact N].
    rewrite app_assoc. apply find_complete_fresh; [lia|exact I|exists a, ds; auto|exact Nb].
Qed.
Theorem function_names_iff s n : In n (function_names s) <-> lists_name s n.
Proof.
  assert (X : In n (filter (fun n => negb (is_empty n)) (map trim_space (split_byte "," s))) <-> lists_name s n).
  { rewrite filter_In, in_map_iff. unfold lists_name. unfold B; cbn [list_ascii_of_string]. split.
    - intros ((t & <- & I) & E). split; [intros Z; rewrite Z in E; discriminate|].
      exists (split_byte "," s), t. split; [symmetry; apply join_split|]. split; [intros x; apply split_byte_pieces|].
      split; [exact I|apply trims_trim].
    - intros (N & ts & t & -> & H & I & T). split.
      + exists t. split; [apply trim_trims, T|]. rewrite split_join; [exact I| |exact H]. intros ->. destruct I.
      + destruct n; [congruence|reflexivity]. }
  unfold function_names. destruct s as [|c s]; [|exact X].
  rewrite <- X. cbn. tauto.
Qed.

Section Run.
Variable isp : N -> bool.
Variable globs : fs -> bytes -> option (list bytes).
Variable creatable : bytes -> bool.
Variable parses : list bytes -> bytes -> bytes -> bytes -> option (list tnode).
Variable letter number : N -> bool.
Notation good_name := (good_name letter number).
Notation resolve_file := (resolve_file parses letter number).
Notation resolve_files := (resolve_files parses letter number).
Notation runs := (runs isp globs creatable parses letter number).

(** ASCII identifiers are good names *)
Lemma alpha_lt c : alpha c -> (code c < 128)%N.
Proof. intros [[H|H]|H]; [lia|lia|subst; reflexivity]. Qed.
Lemma word_lt c : wordchar c -> (code c < 128)%N.
Proof. intros [H|H]; [apply alpha_lt, H|lia]. Qed.
Lemma good_rest_word t : (forall x, In x t -> wordchar x) -> forall n, (length t <= n)%nat -> good_rest letter number n t = true.
Proof using letter number. clear isp globs creatable parses.
  induction t as [|c t IH]; intros W n L; [destruct n; reflexivity|]. destruct n as [|n]; [cbn [length] in L; lia|].
  cbn [good_rest]. pose proof (W c (or_introl eq_refl)) as Wc. rewrite (decode_rune_ascii c t (word_lt c Wc)). cbn [skipn].
  rewrite IH; [|intros x Hx; apply W; right; exact Hx|cbn [length] in L; lia].
  rewrite Bool.andb_true_r. unfold is_letter, is_number. pose proof (word_lt c Wc) as L2.
  destruct (N.ltb_spec (code c) 128) as [_|]; [|lia].
  destruct Wc as [[[Wc|Wc]|Wc]|Wc].
  - lia.
  - lia.
  - subst c. reflexivity.
  - lia.
Qed.
Lemma good_identifier s : identifier s -> good_name s = true.
Proof using letter number. clear isp globs creatable parses.
  intros (c & t & -> & A & W). unfold XtModel.good_name. rewrite (decode_rune_ascii c t (alpha_lt c A)). cbn [skipn].
  rewrite (good_rest_word t W); [|cbn [length]; lia]. rewrite Bool.andb_true_r. unfold is_letter. pose proof (alpha_lt c A) as L2.
  destruct (N.ltb_spec (code c) 128) as [_|]; [|lia].
  destruct A as [[A|A]|A].
  - lia.
  - lia.
  - subst c. reflexivity.
Qed.
(** the same with other letters *)
Lemma go_letter_iff r : (r =? 95)%N || is_letter letter r = true <-> go_letter letter r.
Proof using letter number. clear isp globs creatable parses.
  unfold go_letter, is_letter. rewrite Bool.orb_true_iff, N.eqb_eq.
  destruct (N.ltb_spec r 128) as [L|L].
  - rewrite Bool.orb_true_iff, !Bool.andb_true_iff, !N.leb_le. split; [tauto|]. intros [H|[H|[H _]]]; [tauto|tauto|lia].
  - split; [intros [->|H]; [tauto|right; right; auto]|]. intros [H|[H|[_ H]]]; [lia|auto|auto].
Qed.
Lemma go_number_iff r : is_number number r = true <-> go_number number r.
Proof using letter number. clear isp globs creatable parses.
  unfold go_number, is_number. destruct (N.ltb_spec r 128) as [L|L].
  - rewrite Bool.andb_true_iff, !N.leb_le. split; [tauto|]. intros [H|[H _]]; [tauto|lia].
  - split; [auto|]. intros [H|[_ H]]; [lia|exact H].
Qed.
Lemma good_go_rest rs : (forall x, In x rs -> valid_rune x = true) -> (forall x, In x rs -> go_letter letter x \/ go_number number x) ->
  forall n, (length (concat (map encode_rune rs)) <= n)%nat -> good_rest letter number n (concat (map encode_rune rs)) = true.
Proof using letter number. clear isp globs creatable parses.
  induction rs as [|r rs IH]; intros V G n L; [destruct n; reflexivity|]. cbn [map concat] in *.
  pose proof (encode_rune_nonempty r) as NE. rewrite app_length in L.
  destruct n as [|n]; [destruct (encode_rune r); [congruence|cbn [length] in L; lia]|].
  destruct (encode_rune r ++ concat (map encode_rune rs)) as [|c t] eqn:E; [destruct (encode_rune r); [congruence|discriminate]|].
  cbn [good_rest]. rewrite <- E.
  rewrite (encode_decode r _ (V r (or_introl eq_refl))).
  rewrite skipn_app, skipn_all, Nat.sub_diag. cbn [app skipn].
  rewrite IH.
  - rewrite Bool.andb_true_r. specialize (G r (or_introl eq_refl)). rewrite <- go_letter_iff, <- go_number_iff in G.
    rewrite <- Bool.orb_true_iff in G. exact G.
  - intros x Hx. apply V. right; exact Hx.
  - intros x Hx. apply G. right; exact Hx.
  - destruct (encode_rune r); [congruence|cbn [length] in L; lia].
Qed.
Lemma good_go s : go_identifier letter number s -> good_name s = true.
Proof using letter number. clear isp globs creatable parses.
  intros (r & rs & -> & V & G & Gs). unfold XtModel.good_name. cbn [map concat].
  destruct (encode_rune r ++ concat (map encode_rune rs)) as [|c t] eqn:E.
  { pose proof (encode_rune_nonempty r). destruct (encode_rune r); [congruence|discriminate]. }
  rewrite <- E, (encode_decode r _ (V r (or_introl eq_refl))).
  rewrite skipn_app, skipn_all, Nat.sub_diag. cbn [app skipn].
  rewrite good_go_rest; [|intros x Hx; apply V; right; exact Hx|exact Gs|rewrite app_length; lia].
  rewrite Bool.andb_true_r. apply go_letter_iff, G.
Qed.

(** ** Files *)
Section Files.
Variable p : param.
Variable names : list bytes.
Variable w : fs.
Notation trees := (trees parses p names w).
Notation found := (found parses p names w).
Lemma files_good files : (forall n, In n names -> good_name n = true) -> forall b c, resolve_files p names w files b c <> None.
Proof.
  intros G. induction files as [|n files IH]; intros b c; cbn [XtModel.resolve_files]; [discriminate|].
  unfold XtModel.resolve_file. destruct (w n) as [src|]; [|apply IH].
  replace (forallb good_name (names ++ scan_func_names src)) with true.
  - destruct (parses _ _ _ _); apply IH.
  - symmetry. apply forallb_forall. intros x Hx. apply in_app_or in Hx as [Hx|Hx]; [auto|].
    apply good_identifier. apply (scan_sound _ _ Hx).
Qed.
Lemma files_failed files : forall c c' b, resolve_files p names w files true c = Some (c', b) -> b = true.
Proof.
  induction files as [|n files IH]; intros c c' b; cbn [XtModel.resolve_files]; [congruence|].
  destruct (resolve_file p names w n c); [apply IH|apply IH|discriminate].
Qed.
Lemma files_ok files : forall c c', resolve_files p names w files false c = Some (c', false) ->
  c' = fold_left (fun c n => fold_left (fun c t => resolve_node n t c) (trees n) c) files c
  /\ forall n, In n files -> exists src, w n = Some src /\ parses (names ++ scan_func_names src) (p_left p) (p_right p) src = Some (trees n).
Proof.
  induction files as [|n files IH]; intros c c'; cbn [XtModel.resolve_files fold_left].
  - intros E. split; [congruence|intros n []].
  - unfold XtModel.resolve_file. destruct (w n) as [src|] eqn:W.
    2:{ intros H. apply files_failed in H. discriminate. }
    destruct (forallb good_name (names ++ scan_func_names src)); [|discriminate].
    destruct (parses (names ++ scan_func_names src) (p_left p) (p_right p) src) as [t|] eqn:Pt.
    2:{ intros H. apply files_failed in H. discriminate. }
    intros H. apply IH in H as [H1 H2]. assert (Et : trees n = t) by (unfold trees; rewrite W, Pt; reflexivity).
    rewrite Et. split; [exact H1|]. intros m [<-|Hm]; [|apply H2, Hm].
    exists src. split; [exact W|]. rewrite Et. exact Pt.
Qed.
Lemma emits_files kws files :
  emits kws (fun c => fold_left (fun c n => fold_left (fun c t => resolve_node n t c) (trees n) c) files c) (found kws files).
Proof.
  eapply emits_ext; [| |apply (emits_fold kws (fun n c => fold_left (fun c t => resolve_node n t c) (trees n) c)
    (fun n o e => exists j t o', nth_error (trees n) j = Some t /\ o = j :: o' /\ node_hit kws n t o' e) files)].
  - reflexivity.
  - intros o e. unfold found, node_hit. split.
    + intros (i & n & o1 & E1 & -> & (j & t & o2 & E2 & -> & (k & M & G))). exists i, n, j, t, o2, k. auto.
    + intros (i & n & j & t & o' & k & -> & E1 & E2 & M & G). exists i, n, (j :: o'). split; [exact E1|]. split; [reflexivity|].
      exists j, t, o'. split; [exact E2|]. split; [reflexivity|]. exists k. auto.
  - intros n _. apply (emits_fold kws (fun t c => resolve_node n t c) (node_hit kws n) (trees n)). intros t _. apply emits_node.
Qed.
End Files.

(** ** Runs *)
Lemma to_file_iff (p : param) : to_file p = true <-> is_file (p_output p).
Proof using. clear isp globs creatable parses letter number.
  unfold to_file, is_file. rewrite Bool.andb_true_iff, !Bool.negb_true_iff, beq_neq.
  destruct (p_output p); cbn [is_empty]; intuition congruence.
Qed.
Lemma fs_set_same w n t : fs_set w n t n = Some t.
Proof. unfold fs_set. rewrite beq_refl. reflexivity. Qed.
Lemma fs_set_other w n t m : m <> n -> fs_set w n t m = w m.
Proof. unfold fs_set. intros H. apply beq_neq in H. rewrite H. reflexivity. Qed.
(** a run always has an end *)
Lemma runs_total now p w : exists o w' out, runs now p w o w' out.
Proof.
  destruct (parse_keywords (p_keyword p)) as [kws|] eqn:K.
  2:{ do 3 eexists. apply R_keywords, K. }
  assert (O : (to_file p = true /\ creatable (p_output p) = false) \/ exists w1,
    (to_file p = true /\ creatable (p_output p) = true /\ w1 = fs_set w (p_output p) [] \/ to_file p = false /\ w1 = w)).
  { destruct (to_file p); [destruct (creatable (p_output p)); [|left; auto]|].
    - right. eexists. left. auto.
    - right. eexists. right. auto. }
  destruct O as [[O1 O2]|(w1 & O)].
  { do 3 eexists. eapply R_open; eauto. }
  destruct (globs w1 (p_input p)) as [files|] eqn:G.
  2:{ do 3 eexists. eapply R_glob; eauto. }
  destruct (resolve_files p (map k_name kws ++ function_names (p_function p)) w1 files false (new_ctx kws)) as [[c []]|] eqn:R.
  - do 3 eexists. eapply R_file; eauto.
  - set (f := fold_left add_entry (vals (c_entries c)) (add_entry new_file (header_entry now p (c_has_plural c)))).
    destruct (proj2 (saves_exist isp f)) as (out & S).
    do 3 eexists. eapply R_done; eauto. exists (vals (c_entries c)). split; [apply Permutation_refl|reflexivity].
  - do 3 eexists. eapply R_panic; eauto.
Qed.
Lemma opened_iff p w w1 : (to_file p = true /\ creatable (p_output p) = true /\ w1 = fs_set w (p_output p) [] \/ to_file p = false /\ w1 = w) ->
  w1 = opened p w.
Proof. unfold opened. intros [(-> & _ & ->)|(-> & ->)]; reflexivity. Qed.
Lemma runs_others now p w o w' out n : runs now p w o w' out -> n <> p_output p \/ ~ is_file (p_output p) -> w' n = w n.
Proof.
  intros R H.
  assert (Op : opened p w n = w n).
  { unfold opened. destruct (to_file p) eqn:T; [|reflexivity]. apply to_file_iff in T. destruct H as [H|H]; [|tauto].
    apply fs_set_other, H. }
  inversion R; subst; try reflexivity;
    match goal with X : _ \/ _ |- _ => try (apply opened_iff in X; subst) end; try exact Op.
  destruct (to_file p) eqn:T; [|exact Op]. apply to_file_iff in T. destruct H as [H|H]; [|tauto].
  rewrite fs_set_other by exact H. exact Op.
Qed.
Lemma runs_fail now p w o w' out : runs now p w o w' out -> o <> ROk ->
  out = [] /\ (w' = w \/ is_file (p_output p) /\ creatable (p_output p) = true /\ w' = fs_set w (p_output p) []).
Proof.
  intros R N. inversion R; subst; try congruence; (split; [reflexivity|]); auto;
    match goal with X : _ \/ _ |- _ => destruct X as [(T & C & ->)|(T & ->)]; [right; rewrite <- to_file_iff; auto|left; reflexivity] end.
Qed.
Lemma runs_no_panic now p w o w' out : runs now p w o w' out ->
  (forall kws k, spells (p_keyword p) kws -> In k kws -> go_identifier letter number (k_name k)) ->
  (forall n, lists_name (p_function p) n -> go_identifier letter number n) -> o <> RPanic.
Proof.
  intros R HK HF ->. inversion R; subst.
  match goal with X : resolve_files _ _ _ _ _ _ = None |- _ => revert X end. apply files_good.
  intros n Hn. apply in_app_or in Hn as [Hn|Hn].
  - apply in_map_iff in Hn as (k & <- & Hk). apply good_go. eapply HK; [apply parse_keywords_iff; eassumption|exact Hk].
  - apply function_names_iff in Hn. apply good_go, HF, Hn.
Qed.
Lemma describes_cmts line k args n e x : describes line k args n e -> In x (e_cmts e) -> x = B "#: " ++ line \/ x = B "#, go-format".
Proof.
  intros D. destruct (d_cmts _ _ _ _ _ D) as [[_ ->]|(_ & _ & ->)]; cbn [In]; intuition.
Qed.
Lemma dec_Z_bytes z c : In c (dec_Z z) -> is_digit c = true \/ c = "-"%char.
Proof.
  unfold dec_Z. destruct z as [|q|q]; intros H; try (left; exact (dec_digits _ _ H)).
  destruct H as [<-|H]; [right; reflexivity|left; exact (dec_digits _ _ H)].
Qed.
Lemma ref_ok file line : ~ In NL file -> ~ In CR file -> comment_ok (B "#: " ++ ref file line).
Proof.
  intros N C. assert (X : forall c, is_digit c = false -> c <> "-"%char -> c <> ":"%char -> c <> "#"%char -> c <> " "%char -> ~ In c file -> ~ In c (B "#: " ++ ref file line)).
  { intros c H1 H2 H3 H4 H5 H6 I. unfold ref in I. rewrite !in_app_iff in I. destruct I as [I|[I|[I|I]]].
    - cbn in I. intuition congruence.
    - auto.
    - cbn in I. intuition congruence.
    - apply dec_Z_bytes in I as [I|I]; congruence. }
  split; [eexists; reflexivity|]. split; apply X; try discriminate; try assumption; reflexivity.
Qed.
Lemma message_ok file kws t o k e : ~ In NL file -> ~ In CR file -> message file kws t o k e ->
  (forall x, In x (e_cmts e) -> comment_ok x) /\ (e_plural e = true \/ e_id2 e = []).
Proof.
  intros N C (o1 & o2 & i & line & p & args & n & _ & _ & _ & _ & (_ & D)). split.
  - intros x Hx. apply (describes_cmts _ _ _ _ _ _ D) in Hx as [->| ->].
    + apply ref_ok; assumption.
    + split; [eexists; reflexivity|]. cbn. split; intuition discriminate.
  - rewrite (d_plural _ _ _ _ _ D). pose proof (d_id2 _ _ _ _ _ D) as X. destruct (0 <? k_id2 k); auto.
Qed.
Lemma header_ok now p b : pot_ok (header_entry now p b).
Proof.
  split; [|right; reflexivity]. intros c Hc. cbn [header_entry e_cmts header_cmts In] in Hc.
  repeat (destruct Hc as [<-|Hc]; [split; [eexists; reflexivity|]; cbn; split; intuition discriminate|]). destruct Hc.
Qed.
Theorem runs_text now p w w' out : runs now p w ROk w' out ->
  exists kws files text, spells (p_keyword p) kws /\ globs (opened p w) (p_input p) = Some files
    /\ (forall n, In n files -> exists src, opened p w n = Some src
          /\ parses ((map k_name kws ++ function_names (p_function p)) ++ scan_func_names src) (p_left p) (p_right p) src
             = Some (trees parses p (map k_name kws ++ function_names (p_function p)) (opened p w) n))
    /\ produced p w' out text
    /\ exists l : list (list nat * entry), StronglySorted before (map fst l)
    /\ (forall o e, In (o, e) l <-> found parses p (map k_name kws ++ function_names (p_function p)) (opened p w) kws files o e)
    /\ (clean_names files -> exists f' hp, read_pot text = PoOk f' /\ (hp = true <-> exists k m, merged (map snd l) k m /\ e_plural m = true)
          /\ forall k m', mget k (f_entries f') = Some m' <->
             (exists m, merged (map snd l) k m /\ m' = template_of m)
             \/ (forall x, In x (map snd l) -> e_key x <> key [] []) /\ k = key [] [] /\ m' = template_of (header_entry now p hp)).
Proof.
  intros R. inversion R as [| | | | |kws w1 files c f out' K O G F M S]; subst.
  apply opened_iff in O. subst w1. exists kws, files, out'.
  split; [apply parse_keywords_iff, K|]. split; [exact G|].
  apply files_ok in F as [Ec Hf]. split; [exact Hf|]. split.
  { unfold produced. destruct (to_file p) eqn:T.
    - left. split; [apply to_file_iff, T|apply fs_set_same].
    - right. split; [rewrite <- to_file_iff; congruence|reflexivity]. }
  destruct (emits_files p (map k_name kws ++ function_names (p_function p)) (opened p w) kws files) as (l & L1 & L2 & L3).
  exists l. split; [exact L2|]. split; [exact L3|]. intros CN.
  rewrite (L1 (new_ctx kws) eq_refl) in Ec.
  pose proof (add_merges kws (map snd l)) as Mg. rewrite <- Ec in Mg. clear Ec.
  destruct (pot_entries now p (map snd l) c f Mg M) as [Ff E].
  assert (Ok : forall e, In e (map snd l) -> (forall x, In x (e_cmts e) -> comment_ok x) /\ (e_plural e = true \/ e_id2 e = [])).
  { intros e He. apply in_map_iff in He as ([o x] & X & I). cbn [snd] in X. subst x.
    apply L3 in I as (i & n & j & t & o' & k & -> & En & _ & Me & _). apply nth_error_In in En. destruct (CN n En) as [C1 C2].
    exact (message_ok _ _ _ _ _ _ C1 C2 Me). }
  assert (Ok' : forall e, In e (vals (f_entries f)) -> pot_ok e).
  { intros e He. apply (filed_in _ _ Ff) in He. apply E in He as [He|(_ & _ & ->)]; [|apply header_ok]. split.
    - intros x Hx. destruct (merged_cmts _ _ _ _ He Hx) as (y & Iy & Ix & _). exact (proj1 (Ok y Iy) x Ix).
    - destruct He as (y & F & ->). apply first_in in F as [Iy _]. exact (proj2 (Ok y Iy)). }
  assert (Ne : f_entries f <> []).
  { destruct M as (es & _ & ->). clear. intros Z.
    assert (X : forall es f, f_entries f <> [] -> f_entries (fold_left add_entry es f) <> []).
    { clear. induction es as [|e es IH]; intros f H; cbn [fold_left]; [exact H|]. apply IH. rewrite add_entry_entries.
      intros Z. assert (X : mget (e_key e) (mput (e_key e) e (f_entries f)) = Some e) by apply mget_put_same. rewrite Z in X. discriminate. }
    revert Z. apply X. rewrite add_entry_entries. cbn. discriminate. }
  destruct (pot_round_trip isp f out' Ff Ok' Ne S) as (f' & Rf & _ & H). exists f', (c_has_plural c). split; [exact Rf|]. split.
  - rewrite (m_plural _ _ Mg). split; intros (k & m & X & Y); exists k, m; (split; [|exact Y]); apply (m_entries _ _ Mg), X.
  - intros k m'. rewrite H. split.
    + intros (m & X & ->). apply E in X as [X|(X & -> & ->)]; [left; eauto|right; auto].
    + intros [(m & X & ->)|(X & -> & ->)]; eexists; (split; [apply E|reflexivity]); auto.
Qed.
End Run.
