(** Facts about loading, removing and listing. *)
From Coq Require Import Lia Permutation.
From Verif Require Import GoStr GoStrFacts GoMap GoMapFacts FileModel FileFacts PoModel MoModel TransModel TransSpec TransFacts TransViewFacts.

(** ** Last elements *)
Section Last.
Context {X : Type}.
Variable P : X -> Prop.
Hypothesis P_dec : forall x, {P x} + {~ P x}.
Lemma last_or_none l : {x | last_of P l x} + {forall x, In x l -> ~ P x}.
Proof.
  induction l as [|y l [(x & H)|N]]; [right; intros x []| |].
  - left. exists x. destruct H as (a & b & -> & H). exists (y :: a), b. split; [reflexivity|exact H].
  - destruct (P_dec y) as [Y|Y].
    + left. exists y, [], l. auto.
    + right. intros x [<-|H]; auto.
Qed.
Lemma last_app a b x : last_of P (a ++ b) x <-> last_of P b x \/ (forall y, In y b -> ~ P y) /\ last_of P a x.
Proof.
  split.
  - intros (u & v & E & Px & N). revert u E. induction a as [|z a IH]; intros u E; cbn [app] in *.
    + left. exists u, v. auto.
    + destruct u as [|w u]; cbn [app] in E; injection E as -> E.
      * right. split; [intros y H; apply N; rewrite <- E; apply in_or_app; auto|]. exists [], a. repeat split; auto.
        intros y H. apply N. rewrite <- E. apply in_or_app. auto.
      * destruct (IH u E) as [H|(H & a1 & a2 & -> & H2)]; [auto|right]. split; [exact H|]. exists (w :: a1), a2. auto.
  - intros [(u & v & -> & H)|(N & u & v & -> & Px & H)].
    + exists (a ++ u), v. rewrite <- app_assoc. auto.
    + exists u, (v ++ b). rewrite <- app_assoc. repeat split; auto. intros y I. apply in_app_or in I as [I|I]; auto.
Qed.
Lemma last_unique l x y : last_of P l x -> last_of P l y -> x = y.
Proof.
  intros (a & b & -> & Px & N). revert y. induction a as [|z a IH]; intros y (u & v & E & Py & M); cbn [app] in E.
  - destruct u as [|w u]; cbn [app] in E; injection E as E1 E2; [exact E1|]. exfalso. apply (N y); [|exact Py].
    rewrite E2. apply in_or_app. right. left. reflexivity.
  - destruct u as [|w u]; cbn [app] in E; injection E as E1 E2.
    + exfalso. apply (M x); [|exact Px]. rewrite <- E2. apply in_or_app. right. left. reflexivity.
    + apply IH. exists u, v. auto.
Qed.
End Last.

(** ** Names *)
Lemma has_suffix_iff p s : has_suffix p s = true <-> exists x, s = x ++ p.
Proof.
  unfold has_suffix. rewrite has_prefix_iff. split; intros (x & E).
  - exists (rev x). rewrite <- (rev_involutive s), E, rev_app_distr, rev_involutive. reflexivity.
  - exists (rev x). rewrite E, rev_app_distr. reflexivity.
Qed.
Lemma mo_not_po n : has_suffix (B ".mo") n = true -> has_suffix (B ".po") n = false.
Proof.
  intros H. apply has_suffix_iff in H as (x & ->). destruct (has_suffix _ _) eqn:E; [|reflexivity].
  apply has_suffix_iff in E as (y & E). exfalso.
  apply (f_equal (@rev _)) in E. rewrite !rev_app_distr in E. vm_compute (rev (B ".mo")) in E. vm_compute (rev (B ".po")) in E.
  cbn [app] in E. discriminate.
Qed.
Lemma honest_tail e w : honest (e :: w) -> honest w.
Proof. intros H dir name x I. apply (H dir name x). right. exact I. Qed.
Lemma catalogs_po w : honest w -> catalogs (B ".po") w = readable (B ".po") as_po w.
Proof.
  intros H. unfold catalogs. induction w as [|[|dir name [x|]] w IH]; try reflexivity.
  - cbn [hits readable]. specialize (IH (honest_tail _ _ H)). destruct dir; [exact IH|].
    pose proof (H false name x (or_introl eq_refl)) as N. destruct x as [nm ct]. cbn in N. subst nm.
    destruct (has_suffix (B ".po") name) eqn:E; [|destruct ct; exact IH].
    cbn [flat_map]. rewrite IH. unfold gives. cbn [ff_name ff_content]. destruct ct as [c|]; [|reflexivity]. rewrite E. unfold as_po.
    destruct (read_po c); reflexivity.
  - cbn [hits readable]. specialize (IH (honest_tail _ _ H)). destruct dir; exact IH.
Qed.
Lemma catalogs_mo w : honest w -> catalogs (B ".mo") w = readable (B ".mo") as_mo w.
Proof.
  intros H. unfold catalogs. induction w as [|[|dir name [x|]] w IH]; try reflexivity.
  - cbn [hits readable]. specialize (IH (honest_tail _ _ H)). destruct dir; [exact IH|].
    pose proof (H false name x (or_introl eq_refl)) as N. destruct x as [nm ct]. cbn in N. subst nm.
    destruct (has_suffix (B ".mo") name) eqn:E; [|destruct ct; exact IH].
    cbn [flat_map]. rewrite IH. unfold gives. cbn [ff_name ff_content]. destruct ct as [c|]; [|reflexivity].
    rewrite (mo_not_po name E), E. unfold as_mo. destruct (read_mo c); reflexivity.
  - cbn [hits readable]. specialize (IH (honest_tail _ _ H)). destruct dir; exact IH.
Qed.

Section Facts.
Context {A : Type}.
Variable norm : bytes -> bytes.
Notation state := (@state A).
Implicit Types s : state.
Notation speaks := (speaks norm).

(** ** The languages after loading *)
Lemma speaks_dec l f : {speaks l f} + {~ speaks l f}.
Proof.
  unfold TransSpec.speaks. destruct (fst (lang f)) as [|c r]; [right; intros [H _]; contradiction|].
  destruct (bytes_dec (norm (c :: r)) l); [left|right; tauto]. split; [discriminate|assumption].
Qed.
Lemma add_all_spec l : forall cs n (m : gmap (@tor A)),
  (exists a f b, cs = a ++ f :: b /\ speaks l f /\ (forall g, In g b -> ~ speaks l g)
                 /\ mget l (add_all norm n cs m) = Some (TFile (n + length a)))
  \/ (forall g, In g cs -> ~ speaks l g) /\ mget l (add_all norm n cs m) = mget l m.
Proof.
  induction cs as [|f cs IH]; intros n m; cbn [add_all]; [right; split; [intros g []|reflexivity]|].
  set (m' := match fst (lang f) with [] => m | x => _ end).
  destruct (IH (S n) m') as [(a & g & b & E & Sp & N & G)|(N & G)].
  - left. exists (f :: a), g, b. rewrite E in *. repeat split; try apply Sp; auto. rewrite G. cbn [length]. do 2 f_equal. lia.
  - destruct (speaks_dec l f) as [Sp|Sp].
    + left. exists [], f, cs. repeat split; try apply Sp; auto. rewrite G. destruct Sp as [Ne El]. unfold m'.
      destruct (fst (lang f)) as [|c r]; [contradiction|]. rewrite <- El, mget_put_same. cbn [length]. rewrite Nat.add_0_r. reflexivity.
    + right. split; [intros g [<-|H]; auto|]. rewrite G. unfold m', TransSpec.speaks in *.
      destruct (fst (lang f)) as [|c r]; [reflexivity|]. rewrite mget_put_other; [reflexivity|].
      intros E. apply Sp. split; [discriminate|congruence].
Qed.
Lemma with_files_langs s t cs l : t < length (s_trs s) ->
  (exists f a, last_of (speaks l) cs f /\ tr_get (the_tr (with_files norm s t cs) t) l = Some (TFile a)
      /\ length (s_files s) <= a /\ same_file f (the_file (with_files norm s t cs) a))
  \/ (forall g, In g cs -> ~ speaks l g) /\ tr_get (the_tr (with_files norm s t cs) t) l = tr_get (the_tr s t) l.
Proof.
  intros H. assert (T : tr_langs (the_tr (with_files norm s t cs) t) = add_all norm (length (s_files s)) cs (tr_langs (the_tr s t))).
  { unfold the_tr at 1, with_files. cbn [s_trs]. rewrite nth_upd_same by exact H. reflexivity. }
  unfold tr_get. rewrite T.
  destruct (add_all_spec l cs (length (s_files s)) (tr_langs (the_tr s t))) as [(a & f & b & E & Sp & N & G)|G]; [left|right; exact G].
  exists f, (length (s_files s) + length a). split; [exists a, b; auto|]. split; [exact G|]. split; [lia|].
  unfold the_file, with_files. cbn [s_files]. rewrite app_nth2 by lia.
  replace (length (s_files s) + length a - length (s_files s)) with (length (map init_header a)) by (rewrite map_length; lia).
  rewrite E, map_app. cbn [map]. rewrite nth_middle. apply same_init_header.
Qed.
Lemma wins_app l mos pos f : last_of (speaks l) (mos ++ pos) f <-> wins norm l mos pos f.
Proof. apply last_app. Qed.

(** ** Binding *)
Section Bind.
Variable fmt : bytes -> list A -> bytes.
Variables (s : state) (h : nat) (d : bytes) (wm wp : list event).
Hypothesis W : wf s.
Hypothesis H : h < length (s_ts s).
Let s' := bind_fs norm s h d wm wp.
Lemma bind_h : the_ts s' h = the_ts s h.
Proof. unfold the_ts, s'. rewrite bind_ts. reflexivity. Qed.
Lemma bind_none : ~ (some_loaded (B ".mo") wm \/ some_loaded (B ".po") wp) -> same_view fmt norm s h s' h.
Proof.
  intros N. apply same_view_of; [exact W| |apply bind_keeps]. unfold s'. rewrite bind_fs_spec. cbn zeta.
  destruct (existsb okb _) eqn:E; [apply some_loaded_iff in E; contradiction|]. split; auto.
Qed.
Lemma bind_domains : some_loaded (B ".mo") wm \/ some_loaded (B ".po") wp ->
  h_domains s' h = mput d (length (s_trs s)) (h_domains s h).
Proof.
  intros L. unfold h_domains at 1. rewrite bind_h. unfold s'. rewrite bind_fs_spec. cbn zeta.
  apply some_loaded_iff in L. rewrite L. rewrite the_map_upd, Nat.eqb_refl.
  replace (Nat.ltb _ _) with true; [reflexivity|]. symmetry. apply Nat.ltb_lt. cbn. apply (w_maps s W), H.
Qed.
Lemma bind_others d' l : d' <> d -> same_answers fmt norm (retarget s h d' l) h (retarget s' h d' l) h.
Proof.
  intros N. assert (H' : h < length (s_ts s')) by (unfold s'; rewrite bind_ts; exact H).
  apply same_answers_of; [apply retarget_wf, W|apply retarget_keeps, bind_keeps| | | |];
    rewrite ?retarget_locale, ?retarget_domain by assumption; auto.
  - unfold h_source. rewrite !retarget_ts by assumption. cbn [t_source]. rewrite bind_h. reflexivity.
  - unfold h_get, h_domains. rewrite !retarget_ts by assumption. cbn [t_map].
    change (mget d' (h_domains s h) = mget d' (h_domains s' h)).
    destruct (existsb okb (hits (B ".mo") wm ++ hits (B ".po") wp)) eqn:E.
    + apply some_loaded_iff in E. rewrite (bind_domains E). rewrite mget_put_other by congruence. reflexivity.
    + unfold h_domains at 2. rewrite bind_h. unfold s'. rewrite bind_fs_spec. cbn zeta. rewrite E. reflexivity.
Qed.
Lemma bind_tr : existsb okb (hits (B ".mo") wm ++ hits (B ".po") wp) = true ->
  the_tr s' (length (s_trs s)) = the_tr (with_files norm (snd (new_translation s d)) (length (s_trs s)) (catalogs (B ".mo") wm ++ catalogs (B ".po") wp)) (length (s_trs s))
  /\ the_file s' = the_file (with_files norm (snd (new_translation s d)) (length (s_trs s)) (catalogs (B ".mo") wm ++ catalogs (B ".po") wp)).
Proof. intros E. unfold s'. rewrite bind_fs_spec. cbn zeta. rewrite E. auto. Qed.
Lemma bind_this l : some_loaded (B ".mo") wm \/ some_loaded (B ".po") wp ->
  (exists f, wins norm l (catalogs (B ".mo") wm) (catalogs (B ".po") wp) f /\ answers_from fmt (retarget s' h d l) h f
     /\ used_locale (retarget s' h d l) h = l)
  \/ nobody norm l (catalogs (B ".mo") wm) (catalogs (B ".po") wp) /\ source_text fmt (retarget s' h d l) h
     /\ used_locale (retarget s' h d l) h = h_source s h.
Proof.
  intros Ld. pose proof (bind_domains Ld) as D. apply some_loaded_iff in Ld. destruct (bind_tr Ld) as [T F].
  assert (H' : h < length (s_ts s')) by (unfold s'; rewrite bind_ts; exact H).
  assert (Lt : length (s_trs s) < length (s_trs (snd (new_translation s d)))) by (cbn; rewrite app_length; cbn; lia).
  assert (G : h_get (retarget s' h d l) h (h_domain (retarget s' h d l) h) = Some (length (s_trs s))).
  { rewrite retarget_domain by exact H'. unfold h_get, h_domains. rewrite retarget_ts by exact H'. cbn [t_map].
    change (mget d (h_domains s' h) = Some (length (s_trs s))). rewrite D. apply mget_put_same. }
  assert (Nn : the_tr (snd (new_translation s d)) (length (s_trs s)) = {| tr_domain := d; tr_langs := [] |}) by apply nth_new.
  assert (Sr : h_source (retarget s' h d l) h = h_source s h).
  { unfold h_source. rewrite retarget_ts by exact H'. cbn [t_source]. rewrite bind_h. reflexivity. }
  destruct (with_files_langs (snd (new_translation s d)) (length (s_trs s)) (catalogs (B ".mo") wm ++ catalogs (B ".po") wp) l Lt)
    as [(f & a & Wn & E & _ & Sm)|(N & E)].
  - left. exists f. split; [apply wins_app, Wn|]. rewrite <- T in E. rewrite <- F in Sm.
    assert (X : the_tor (retarget s' h d l) h = TFile a).
    { apply (catalog_used _ _ _ _ G). rewrite retarget_locale by exact H'. exact E. }
    split.
    + pose proof (tor_answers fmt (retarget s' h d l) h) as Q. rewrite X in Q. destruct Q as [Q1 Q2].
      split; intros; [rewrite Q1; symmetry; apply same_x; exact Sm|rewrite Q2; symmetry; apply same_xn; exact Sm].
    + unfold used_locale. rewrite G. rewrite retarget_locale by exact H'.
      change (the_tr (retarget s' h d l)) with (the_tr s'). rewrite E. reflexivity.
  - right. split; [exact N|]. rewrite <- T in E. rewrite Nn in E. split.
    + apply (no_catalog fmt _ _ _ G). rewrite retarget_locale by exact H'. exact E.
    + unfold used_locale. rewrite G. rewrite retarget_locale by exact H'.
      change (the_tr (retarget s' h d l)) with (the_tr s'). rewrite E. exact Sr.
Qed.
End Bind.

(** ** Domains *)
Lemma has_domain_get s h d : has_domain s h d = true <-> h_get s h d <> None.
Proof.
  unfold has_domain, h_get. rewrite existsb_exists. split.
  - intros (x & I & E). apply beq_eq in E. subst x. intros N. apply mget_none in N. contradiction.
  - intros N. exists d. split; [|apply beq_refl]. destruct (in_dec bytes_dec d (keys (h_domains s h))) as [I|I]; [exact I|].
    apply mget_none in I. contradiction.
Qed.
Lemma has_domain_eq s h s' h' d : h_get s h d = h_get s' h' d -> has_domain s h d = has_domain s' h' d.
Proof.
  intros E. pose proof (has_domain_get s h d) as P. pose proof (has_domain_get s' h' d) as P'. rewrite E in P.
  destruct (has_domain s h d), (has_domain s' h' d); auto; exfalso; intuition discriminate.
Qed.
Lemma remove_true s h d : fst (remove_domain s h d) = true <-> d <> [] /\ has_domain s h d = true.
Proof.
  unfold remove_domain. destruct d as [|c d]; cbn [fst]; [split; [discriminate|intros [H _]; contradiction]|].
  destruct (has_domain s h (c :: d)); cbn [negb fst]; split; intros; try discriminate; try (split; [discriminate|reflexivity]); try tauto.
Qed.
Lemma remove_false s h d : fst (remove_domain s h d) = false -> snd (remove_domain s h d) = s.
Proof. unfold remove_domain. destruct d as [|c d]; [reflexivity|]. destruct (negb _); [reflexivity|discriminate]. Qed.
Lemma remove_spec s h d : wf s -> h < length (s_ts s) -> fst (remove_domain s h d) = true ->
  let s' := snd (remove_domain s h d) in
  h_get s' h d = None /\ (forall d', d' <> d -> h_get s' h d' = h_get s h d')
  /\ h_locale s' h = h_locale s h /\ h_source s' h = h_source s h
  /\ h_domain s' h = (if beq (h_domain s h) d then default_domain else h_domain s h)
  /\ h < length (s_ts s') /\ keeps s s'.
Proof.
  intros W H R. cbn zeta. unfold remove_domain in *. destruct d as [|c d]; [discriminate|]. remember (c :: d) as dd.
  destruct (has_domain s h dd); cbn [negb snd fst] in *; [|discriminate].
  set (s1 := set_map s (t_map (the_ts s h)) (mdel dd (the_map s (t_map (the_ts s h))))).
  assert (M : the_map s1 (t_map (the_ts s h)) = mdel dd (the_map s (t_map (the_ts s h)))).
  { unfold s1. rewrite the_map_upd, Nat.eqb_refl. replace (Nat.ltb _ _) with true; [reflexivity|]. symmetry. apply Nat.ltb_lt, (w_maps s W), H. }
  change (h_domain s1 h) with (h_domain s h).
  assert (T : forall r (x : state), the_ts x h = r -> t_map r = t_map (the_ts s h) -> the_map x = the_map s1 ->
     h_get x h dd = None /\ (forall d', d' <> dd -> h_get x h d' = h_get s h d')).
  { intros r x Ex Er Mx. unfold h_get, h_domains. rewrite Ex, Er, Mx, M. split.
    - apply mget_del_same, W.
    - intros d' N. apply mget_del_other. congruence. }
  destruct (beq (h_domain s h) dd) eqn:E.
  - assert (Q : the_ts (set_domain s1 h default_domain) h = {| t_locale := t_locale (the_ts s h); t_domain := default_domain; t_map := t_map (the_ts s h); t_source := t_source (the_ts s h) |})
      by (apply set_ts_at, H).
    destruct (T _ _ Q eq_refl eq_refl) as [T1 T2]. repeat split; auto; unfold h_locale, h_source, h_domain; rewrite ?Q; auto;
      try (intros; apply same_file_refl); unfold set_domain, set_ts; cbn [s_ts]; rewrite upd_length; exact H.
  - destruct (T _ s1 eq_refl eq_refl eq_refl) as [T1 T2]. repeat split; auto; intros; apply same_file_refl.
Qed.
Lemma clear_spec s h : h < length (s_ts s) ->
  let s' := clear_domains s h in
  (forall d, h_get s' h d = None) /\ h_domain s' h = default_domain /\ h_locale s' h = h_locale s h
  /\ h_source s' h = h_source s h.
Proof.
  intros H. cbn zeta.
  pose (s1 := {| s_ts := s_ts s; s_maps := s_maps s ++ [[]]; s_trs := s_trs s; s_files := s_files s; s_global := s_global s |}).
  pose (r := {| t_locale := t_locale (the_ts s h); t_domain := default_domain; t_map := length (s_maps s); t_source := t_source (the_ts s h) |}).
  assert (E : clear_domains s h = set_ts s1 h r) by reflexivity. rewrite E.
  assert (Q : the_ts (set_ts s1 h r) h = r) by (apply set_ts_at, H).
  repeat split; unfold h_domain, h_locale, h_source; rewrite ?Q; auto.
  intros d. unfold h_get, h_domains. rewrite Q. cbn [t_map r]. unfold the_map, set_ts, s1. cbn [s_maps]. rewrite nth_new. reflexivity.
Qed.

(** ** Locales *)
Lemma existsb_beq x l : existsb (beq x) l = true <-> In x l.
Proof.
  rewrite existsb_exists. split; [intros (y & I & E); apply beq_eq in E; subst; exact I|].
  intros I. exists x. split; [exact I|apply beq_refl].
Qed.
Lemma nodup_snoc (x : bytes) l : NoDup l -> ~ In x l -> NoDup (l ++ [x]).
Proof.
  intros N I. apply (Permutation_NoDup (l := x :: l)); [apply Permutation_cons_append|]. constructor; assumption.
Qed.
Lemma collect_gen langs : forall acc, NoDup acc ->
  let r := fold_left (fun ls l => let l := norm l in if existsb (beq l) ls then ls else ls ++ [l]) langs acc in
  NoDup r /\ forall x, In x r <-> In x acc \/ exists l, In l langs /\ x = norm l.
Proof.
  induction langs as [|l langs IH]; intros acc N; cbn zeta in *; cbn [fold_left].
  - split; [exact N|]. intros x. split; [auto|intros [H|(l & [] & _)]; exact H].
  - destruct (existsb (beq (norm l)) acc) eqn:E.
    + destruct (IH acc N) as [I1 I2]. split; [exact I1|]. intros x. rewrite I2. split.
      * intros [H|(y & H & ->)]; [auto|right; exists y; split; [right; exact H|reflexivity]].
      * intros [H|(y & [<-|H] & ->)]; [auto|left; apply existsb_beq, E|right; exists y; auto].
    + assert (N' : NoDup (acc ++ [norm l])).
      { apply nodup_snoc; [exact N|]. intros I. apply existsb_beq in I. congruence. }
      destruct (IH (acc ++ [norm l]) N') as [I1 I2]. split; [exact I1|]. intros x. rewrite I2, in_app_iff. cbn [In]. split.
      * intros [[H|[<-|[]]]|(y & H & ->)]; [auto|right; exists l; auto|right; exists y; auto].
      * intros [H|(y & [<-|H] & ->)]; [auto|auto|right; exists y; auto].
Qed.
Lemma collect_spec src langs : NoDup (collect norm src langs)
  /\ forall x, In x (collect norm src langs) <-> x = src \/ exists l, In l langs /\ x = norm l.
Proof.
  destruct (collect_gen langs [src]) as [N I]; [constructor; [intros []|constructor]|]. split; [exact N|].
  intros x. rewrite (I x). cbn [In]. split; (intros [H|H]; [|right; exact H]); [destruct H as [H|[]]|]; auto.
Qed.
Lemma sorted_increasing l : NoDup l -> sorted_strings l -> increasing l.
Proof.
  induction l as [|x l IH]; intros N S; [exact I|]. inversion N as [|? ? Nx Nl]; subst. destruct S as [S1 S2].
  split; [|apply IH; assumption]. intros y Hy. destruct (bltb x y) eqn:E; [reflexivity|].
  exfalso. apply Nx. rewrite (bltb_trichotomy x y E (S1 y Hy)). exact Hy.
Qed.
Lemma increasing_unique a : forall b, increasing a -> increasing b -> (forall x, In x a <-> In x b) -> a = b.
Proof.
  induction a as [|x a IH]; intros [|y b] Ha Hb E; auto.
  - exfalso. apply (proj2 (E y)). left. reflexivity.
  - exfalso. apply (proj1 (E x)). left. reflexivity.
  - destruct Ha as [Ha1 Ha2], Hb as [Hb1 Hb2].
    assert (x = y).
    { destruct (proj1 (E x) (or_introl eq_refl)) as [Q|Q]; [auto|].
      destruct (proj2 (E y) (or_introl eq_refl)) as [R|R]; [auto|].
      pose proof (Hb1 x Q) as B1. pose proof (Ha1 y R) as B2. rewrite (bltb_asym _ _ B1) in B2. discriminate. }
    subst y. f_equal. apply IH; auto. intros z. split; intros Hz.
    + destruct (proj1 (E z) (or_intror Hz)) as [<-|Q]; [|exact Q]. specialize (Ha1 x Hz). rewrite bltb_irrefl in Ha1. discriminate.
    + destruct (proj2 (E z) (or_intror Hz)) as [<-|Q]; [|exact Q]. specialize (Hb1 x Hz). rewrite bltb_irrefl in Hb1. discriminate.
Qed.
Fixpoint insert (x : bytes) (l : list bytes) : list bytes :=
  match l with [] => [x] | y :: r => if bltb y x then y :: insert x r else x :: y :: r end.
Lemma insert_perm x l : Permutation (insert x l) (x :: l).
Proof.
  induction l as [|y l IH]; [reflexivity|]. cbn [insert]. destruct (bltb y x); [|reflexivity].
  rewrite IH. apply perm_swap.
Qed.
Lemma insert_sorted x l : sorted_strings l -> sorted_strings (insert x l).
Proof.
  induction l as [|y l IH]; intros S; [split; [intros ? []|exact I]|]. destruct S as [S1 S2]. cbn [insert]. destruct (bltb y x) eqn:E.
  - split; [|apply IH, S2]. intros z Hz. apply (Permutation_in _ (insert_perm x l)) in Hz as [<-|Hz]; [|apply S1, Hz].
    apply bltb_asym, E.
  - split; [|split; assumption]. intros z [<-|Hz]; [exact E|]. destruct (bltb z x) eqn:F; [|reflexivity].
    exfalso. pose proof (S1 z Hz) as Q. destruct (bltb x y) eqn:G.
    + pose proof (bltb_trans z x y F G). congruence.
    + pose proof (bltb_trichotomy y x E G). subst y. congruence.
Qed.
Lemma sort_exists l : exists r, Permutation r l /\ sorted_strings r.
Proof.
  induction l as [|x l (r & P & S)]; [exists []; split; [reflexivity|exact I]|]. exists (insert x r).
  split; [rewrite insert_perm, P; reflexivity|apply insert_sorted, S].
Qed.
Lemma locales_exist s h : exists out, locales norm s h out.
Proof.
  unfold locales. cbn zeta. set (ks := keys _). destruct (sort_exists (collect norm (h_source s h) ks)) as (r & P & S).
  exists r, ks. auto.
Qed.
Lemma locales_spec s h out : locales norm s h out ->
  increasing out /\ forall x, In x out <-> x = h_source s h \/
     exists l, In l (keys (tr_langs (the_tr s (h_get_or_noop s h (h_domain s h))))) /\ x = norm l.
Proof.
  intros (order & Po & Pr & S). destruct (collect_spec (h_source s h) order) as [N E]. split.
  - apply sorted_increasing; [|exact S]. eapply Permutation_NoDup; [symmetry; exact Pr|exact N].
  - intros x. transitivity (In x (collect norm (h_source s h) order)).
    + split; apply Permutation_in; [exact Pr|symmetry; exact Pr].
    + rewrite E. split; (intros [Q|(l & I & Q)]; [auto|right; exists l; split; [|exact Q]]); revert I; apply Permutation_in; [exact Po|symmetry; exact Po].
Qed.
Lemma locales_unique s h a b : locales norm s h a -> locales norm s h b -> a = b.
Proof.
  intros Ha Hb. destruct (locales_spec s h a Ha) as [Ia Ea]. destruct (locales_spec s h b Hb) as [Ib Eb].
  apply increasing_unique; auto. intros x. rewrite Ea, Eb. reflexivity.
Qed.

(** ** Catalogs stay until they are replaced *)
Section Puts.
Variable fmt : bytes -> list A -> bytes.
Lemma with_files_get s t cs l : t < length (s_trs s) -> ~ (exists f, In f cs /\ speaks l f) ->
  forall t', tr_get (the_tr (with_files norm s t cs) t') l = tr_get (the_tr s t') l.
Proof.
  intros H N t'. destruct (Nat.eq_dec t' t) as [->|Q]; [|rewrite with_files_old by exact Q; reflexivity].
  destruct (with_files_langs s t cs l H) as [(f & a & (u & v & E & Sp & _) & _)|(_ & E)]; [|exact E].
  exfalso. apply N. exists f. split; [rewrite E; apply in_or_app; right; left; reflexivity|exact Sp].
Qed.
Lemma tor_lang_tr s x t : the_tr (snd (tor_lang s x)) t = the_tr s t.
Proof. destruct x; reflexivity. Qed.
Lemma add_get s t x l : t < length (s_trs s) ->
  let s' := snd (add_or_replace norm s t x) in
  let lg := fst (tor_lang s x) in
  (lg <> [] -> norm lg = l -> tr_get (the_tr s' t) l = Some x)
  /\ (forall t' , t' <> t \/ lg = [] \/ norm lg <> l -> tr_get (the_tr s' t') l = tr_get (the_tr s t') l)
  /\ fst (add_or_replace norm s t x) = match lg with [] => None | _ => tr_get (the_tr s t) (norm lg) end.
Proof.
  intros H. cbn zeta. unfold add_or_replace. pose proof (tor_lang_tr s x) as T.
  assert (Lt : length (s_trs (snd (tor_lang s x))) = length (s_trs s)) by (destruct x; reflexivity).
  destruct (tor_lang s x) as [lg s1]. cbn [fst snd] in *. destruct lg as [|c r]; cbn [fst snd].
  - split; [congruence|]. split; [|reflexivity]. intros t' _. rewrite T. reflexivity.
  - remember (c :: r) as lg. assert (Ne : lg <> []) by congruence.
    assert (E : the_tr (set_tr s1 t {| tr_domain := tr_domain (the_tr s1 t); tr_langs := mput (norm lg) x (tr_langs (the_tr s1 t)) |}) t
       = {| tr_domain := tr_domain (the_tr s1 t); tr_langs := mput (norm lg) x (tr_langs (the_tr s1 t)) |}).
    { unfold the_tr at 1, set_tr. cbn [s_trs]. apply nth_upd_same. lia. }
    split; [|split].
    + intros _ <-. unfold tr_get. rewrite E. cbn [tr_langs]. apply mget_put_same.
    + intros t' Q. destruct (Nat.eq_dec t' t) as [->|N].
      * unfold tr_get. rewrite E. cbn [tr_langs]. rewrite mget_put_other, T by (destruct Q as [Q|[Q|Q]]; congruence). reflexivity.
      * unfold tr_get, the_tr at 1, set_tr. cbn [s_trs]. rewrite nth_upd_other by exact N.
        change (mget l (tr_langs (the_tr s1 t')) = mget l (tr_langs (the_tr s t'))). rewrite T. reflexivity.
    + rewrite T. reflexivity.
Qed.
Lemma puts_kept s o t l x : wf s -> known s o -> ~ puts norm t l s o -> t < length (s_trs s) ->
  tr_get (the_tr s t) l = Some x -> tr_get (the_tr (do_op fmt norm s o) t) l = Some x.
Proof.
  intros W K N H E.
  assert (G : keeps s (do_op fmt norm s o) -> tr_get (the_tr (do_op fmt norm s o) t) l = Some x).
  { intros Kp. rewrite (k_trs _ _ Kp) by exact H. exact E. }
  assert (Q : ~ direct o -> on_handle o = None -> keeps s (do_op fmt norm s o)).
  { intros Nd No. apply (elsewhere_frame fmt norm s o (s_global s) W K); [split; [exact Nd|congruence]|apply W]. }
  assert (Wf : forall t' cs, t' < length (s_trs s) -> ~ (t' = t /\ exists f, In f cs /\ speaks l f) ->
     tr_get (the_tr (with_files norm s t' cs) t) l = Some x).
  { intros t' cs Ht Nn. destruct (Nat.eq_dec t' t) as [->|D].
    - rewrite with_files_get; auto. 
    - rewrite with_files_old by congruence. exact E. }
  destruct o; try (apply G, Q; [solve [intros []]|reflexivity]); cbn [do_op known puts] in *; try rewrite language_named in N.
  - exact E.
  - exact E.
  - exact E.
  - apply G, bind_keeps.
  - apply G. unfold remove_domain. destruct domain; [apply keeps_refl|]. destruct (negb _); [apply keeps_refl|]. cbn [snd].
    eapply keeps_trans; [apply set_map_keeps|]. destruct (beq _ _); [apply set_ts_keeps|apply keeps_refl].
  - exact E.
  - destruct (add_get s t0 x0 l (proj1 K)) as (_ & G2 & _). rewrite G2; [exact E|].
    destruct (Nat.eq_dec t t0) as [<-|D]; [right|auto]. destruct (fst (tor_lang s x0)) as [|c r] eqn:El; [auto|right].
    intros En. apply N. split; [reflexivity|split; [congruence|exact En]].
  - rewrite load_po_spec by exact K. unfold as_po in N. destruct (read_po content) as [f| | |]; try exact E. cbn [snd]. apply Wf; [exact K|].
    intros (-> & g & [<-|[]] & Sp). apply N. split; [reflexivity|]. exists f. auto.
  - rewrite load_mo_spec by exact K. unfold as_mo in N. destruct (read_mo content) as [f| |]; try exact E. cbn [snd]. apply Wf; [exact K|].
    intros (-> & g & [<-|[]] & Sp). apply N. split; [reflexivity|]. exists f. auto.
  - rewrite load_fs_spec by exact K. apply Wf; [exact K|exact N].
  - exact E.
Qed.
Lemma trs_grow s o : wf s -> known s o -> length (s_trs s) <= length (s_trs (do_op fmt norm s o)).
Proof.
  intros W K.
  assert (Q : ~ direct o -> on_handle o = None -> length (s_trs s) <= length (s_trs (do_op fmt norm s o))).
  { intros Nd No. apply (elsewhere_frame fmt norm s o (s_global s) W K); [split; [exact Nd|congruence]|apply W]. }
  destruct o; try (apply Q; [solve [intros []]|reflexivity]); cbn [do_op known] in *; try (cbn; lia).
  - apply bind_keeps.
  - unfold remove_domain. destruct domain; [reflexivity|]. destruct (negb _); [reflexivity|]. cbn [snd]. destruct (beq _ _); cbn; lia.
  - unfold add_or_replace. assert (T : length (s_trs (snd (tor_lang s x))) = length (s_trs s)) by (destruct x; reflexivity).
    destruct (tor_lang s x) as [[|c r] s1]; cbn [snd] in *; [lia|]. unfold set_tr. cbn [s_trs]. rewrite upd_length. lia.
  - rewrite load_po_spec by exact K. destruct (read_po content); cbn [snd]; try lia. rewrite with_files_trs. lia.
  - rewrite load_mo_spec by exact K. destruct (read_mo content); cbn [snd]; try lia. rewrite with_files_trs. lia.
  - rewrite load_fs_spec by exact K. cbn [snd]. rewrite with_files_trs. lia.
Qed.
Theorem stays s s' t l x : wf s -> steps fmt norm (fun s o => ~ puts norm t l s o) s s' -> t < length (s_trs s) ->
  tr_get (the_tr s t) l = Some x -> tr_get (the_tr s' t) l = Some x.
Proof.
  intros W S. induction S as [s|s o s' K P S IH]; intros H E; [exact E|]. apply IH.
  - apply wf_step; assumption.
  - pose proof (trs_grow s o W K). lia.
  - apply puts_kept; assumption.
Qed.
End Puts.
End Facts.

(** ** Contexts *)
Lemma ckey_eqb_eq a b : ckey_eqb a b = true <-> a = b.
Proof.
  destruct a, b; cbn [ckey_eqb]; split; intros H; try discriminate; try reflexivity.
  - apply Nat.eqb_eq in H. congruence.
  - injection H as ->. apply Nat.eqb_refl.
Qed.
Lemma cvalue_settings c k :
  match cvalue c k with
  | Some v => exists a b, settings c = a ++ (k, v) :: b /\ forall w, ~ In (k, w) a
  | None => forall w, ~ In (k, w) (settings c)
  end.
Proof.
  induction c as [|c IH k' v|c IH]; cbn [cvalue settings]; [intros w []| |exact IH].
  destruct (ckey_eqb k k') eqn:E.
  - apply ckey_eqb_eq in E. subst k'. exists [], (settings c). split; [reflexivity|intros w []].
  - assert (N : k <> k') by (intros ->; rewrite (proj2 (ckey_eqb_eq k' k') eq_refl) in E; discriminate).
    destruct (cvalue c k) as [u|].
    + destruct IH as (a & b & -> & H). exists ((k', v) :: a), b. split; [reflexivity|]. intros w [Q|Q]; [congruence|exact (H w Q)].
    + intros w [Q|Q]; [congruence|exact (IH w Q)].
Qed.
Lemma most_recent_get c k : private c -> k = KLang \/ k = KDomain -> most_recent c k (as_string (cvalue c k)).
Proof.
  intros P K. pose proof (cvalue_settings c k) as H. destruct (cvalue c k) as [v|]; [|exact H].
  destruct H as (a & b & E & N). destruct (P k v) as (s & ->); [rewrite E; apply in_or_app; right; left; reflexivity|exact K|].
  exists a, b. auto.
Qed.
Lemma most_recent_unique c k o o' : most_recent c k o -> most_recent c k o' -> o = o'.
Proof.
  unfold most_recent. destruct o as [v|], o' as [v'|]; auto.
  - intros (a & b & E & N) (a' & b' & E' & N'). rewrite E in E'. clear E. revert a' E' N'.
    induction a as [|x a IH]; intros [|x' a'] E' N'; cbn [app] in E'; injection E'; intros.
    + congruence.
    + exfalso. apply (N' (VString v)). left. congruence.
    + exfalso. apply (N (VString v')). left. congruence.
    + apply (IH (fun w I => N w (or_intror I)) a'); [assumption|]. intros w I. exact (N' w (or_intror I)).
  - intros (a & b & E & _) H. exfalso. apply (H (VString v)). rewrite E. apply in_or_app. right. left. reflexivity.
  - intros H (a & b & E & _). exfalso. apply (H (VString v')). rewrite E. apply in_or_app. right. left. reflexivity.
Qed.

(** ** Keys are normalised *)
Section Normed.
Context {A : Type}.
Variable norm : bytes -> bytes.
Variable fmt : bytes -> list A -> bytes.
Implicit Types s : @state A.
Definition normed s : Prop := forall t l x, tr_get (the_tr s t) l = Some x -> exists l', l = norm l'.
Lemma add_all_normed cs : forall n (m : gmap (@tor A)) l x, (forall x, mget l m = Some x -> exists l', l = norm l') ->
  mget l (add_all norm n cs m) = Some x -> exists l', l = norm l'.
Proof.
  induction cs as [|f cs IH]; intros n m l x H E; cbn [add_all] in E; [exact (H x E)|].
  eapply IH; [|exact E]. intros y Q. destruct (fst (lang f)) as [|c r]; [exact (H y Q)|].
  rewrite mget_put in Q. destruct (beq l (norm (c :: r))) eqn:B; [|exact (H y Q)]. apply beq_eq in B. eauto.
Qed.
Lemma with_files_normed s t cs : t < length (s_trs s) -> normed s -> normed (with_files norm s t cs).
Proof.
  intros H N t' l x E. destruct (Nat.eq_dec t' t) as [->|D]; [|rewrite with_files_old in E by exact D; exact (N t' l x E)].
  unfold tr_get, the_tr, with_files in E. cbn [s_trs] in E. rewrite nth_upd_same in E by exact H. cbn [tr_langs] in E.
  eapply add_all_normed; [|exact E]. intros y Q. exact (N t l y Q).
Qed.
Lemma new_tr_normed s d : normed s -> normed (snd (new_translation s d)).
Proof.
  intros N t l x E. unfold tr_get, the_tr, new_translation, new_tr in E. cbn [snd s_trs] in E.
  destruct (Nat.lt_ge_cases t (length (s_trs s))) as [L|L]; [rewrite nth_app_old in E by exact L; exact (N t l x E)|].
  destruct (Nat.eq_dec t (length (s_trs s))) as [->|Q]; [rewrite nth_new in E; discriminate|].
  rewrite nth_overflow in E by (rewrite app_length; cbn; lia). discriminate.
Qed.
Lemma same_trs_normed s s' : s_trs s' = s_trs s -> normed s -> normed s'.
Proof. intros E N t l x H. apply (N t l x). unfold the_tr in *. rewrite E in H. exact H. Qed.
Lemma normed_step s o : known s o -> normed s -> normed (do_op fmt norm s o).
Proof.
  intros K N. destruct o; cbn [do_op known] in *; try (revert N; apply same_trs_normed; reflexivity).
  - revert N. apply same_trs_normed. unfold with_context, g_clone. destruct (clone s (s_global s)) as [h1 s1] eqn:E.
    assert (E1 : s_trs s1 = s_trs s) by (rewrite clone_eq in E; injection E as <- <-; reflexivity).
    destruct (get_ctx_locale c); [destruct (h_L norm s1 h1 b d) as [h2 s2] eqn:E2|]; (destruct (get_ctx_domain c); [|]); cbn [snd].
    + unfold h_L in E2. rewrite clone_eq in E2. injection E2 as <- <-. exact E1.
    + unfold h_L in E2. rewrite clone_eq in E2. injection E2 as <- <-. exact E1.
    + exact E1.
    + exact E1.
  - rewrite bind_fs_spec. cbn zeta.
    assert (Q : normed (with_files norm (snd (new_translation s domain)) (length (s_trs s)) (catalogs (B ".mo") wm ++ catalogs (B ".po") wp))).
    { apply with_files_normed; [cbn; rewrite app_length; cbn; lia|apply new_tr_normed, N]. }
    destruct (existsb okb _); [|exact Q]. revert Q. apply same_trs_normed. reflexivity.
  - revert N. apply same_trs_normed. unfold remove_domain. destruct domain; [reflexivity|]. destruct (negb _); [reflexivity|]. cbn [snd].
    destruct (beq _ _); reflexivity.
  - revert N. apply same_trs_normed. unfold h_xn64, tor_xn. destruct (the_tor s h); try reflexivity.
    destruct (f_xn64 fmt _ c i i2 n args). reflexivity.
  - apply new_tr_normed, N.
  - intros t' l y E. destruct (add_get norm fmt s t x l (proj1 K)) as (_ & G & _).
    destruct (Nat.eq_dec t' t) as [->|D]; [|rewrite G in E by auto; exact (N t' l y E)].
    destruct (fst (tor_lang s x)) as [|c r] eqn:El; [rewrite G in E by auto; exact (N t l y E)|].
    destruct (bytes_dec (norm (c :: r)) l) as [<-|Q]; [eauto|rewrite G in E by auto; exact (N t l y E)].
  - rewrite load_po_spec by exact K. destruct (read_po content); try exact N. apply with_files_normed; assumption.
  - rewrite load_mo_spec by exact K. destruct (read_mo content); try exact N. apply with_files_normed; assumption.
  - rewrite load_fs_spec by exact K. apply with_files_normed; assumption.
Qed.
Lemma reach_normed s : reach fmt norm s -> normed s.
Proof.
  intros R. induction R as [d|s o R IH K]; [|apply normed_step; assumption].
  intros t l x E. unfold the_tr, init in E. cbn [s_trs] in E. destruct t as [|[|t]]; discriminate.
Qed.
End Normed.
