(** Properties of package t: handles, loading, locales, contexts, the tag cache. *)
From Coq Require Import Lia Permutation.
From Verif Require Import GoStr GoStrFacts GoMap GoMapFacts FileModel FileFacts PoModel MoModel TransModel TransSpec TransFacts TransViewFacts TransLoadFacts TagModel TagFacts.

(** ** a program for the examples: bind a directory with zh.po, ask for zh *)
Definition ex_fmt (s : bytes) (_ : list unit) : bytes := s.
Definition ex_norm (s : bytes) : bytes := s.
Definition nl : bytes := [NL].
Definition ex_po (l : string) (str : string) : bytes :=
  B "msgid """"" ++ nl ++ B "msgstr ""Language: " ++ B l ++ B "\n""" ++ nl ++ nl ++
  B "msgid ""hi""" ++ nl ++ B "msgstr """ ++ B str ++ B """" ++ nl.
Definition ex_event (name : string) (content : bytes) : event :=
  EEntry false (B name) (Some {| ff_name := Some (B name); ff_content := Some content |}).
Definition ex_walk : list event := [EEntry true (B ".") None; ex_event "zh.po" (ex_po "zh" "ni hao")].
Notation ex_do := (do_op ex_fmt ex_norm).
Definition ex0 : @state unit := init (B "zh").
Definition ex1 : @state unit := ex_do ex0 (OBind 0 (B "default") [] ex_walk).
Lemma ex1_reach : reach_clean ex_fmt ex_norm ex1.
Proof. apply RC_step; [apply RC_init|cbn; lia|intros []]. Qed.
Example ex1_answers : h_x ex_fmt ex1 0 [] (B "hi") [] = B "ni hao".
Proof. vm_compute. reflexivity. Qed.

Section Props.
Context {A : Type}.
Variable fmt : bytes -> list A -> bytes.
Variable norm : bytes -> bytes.
Implicit Types s : @state A.

(** ** C17: the no-op translator *)
Theorem C17_noop : forall s c i i2 n args,
  tor_x fmt s TNoop c i args = fmt i args
  /\ fst (tor_xn fmt s TNoop c i i2 n args) = XStr (fmt (english i i2 n) args)
  /\ fst (tor_xn fmt s TNoop c i [] n args) = XStr (fmt i args).
Proof.
  intros. split; [reflexivity|]. cbn [tor_xn fst]. rewrite english_default. split; [reflexivity|].
  unfold default_plural. reflexivity.
Qed.
(** through a handle without a catalog: T, X, N, XN and N1, XN1 *)
Theorem C17_handle : forall s h, reach_clean fmt norm s ->
  has_domain s h (h_domain s h) = false ->
  (forall i args, h_t fmt s h i args = fmt i args)
  /\ (forall i i2 n args, fst (h_n fmt s h i i2 n args) = XStr (fmt (english i i2 n) args))
  /\ (forall i n args, fst (h_n1 fmt s h i n args) = XStr (fmt i args))
  /\ (forall c i n args, fst (h_xn1 fmt s h c i n args) = XStr (fmt i args)).
Proof.
  intros s h R N. assert (S : source_text fmt s h).
  { apply no_domain; [eapply clean_noop, R|]. destruct (h_get s h (h_domain s h)) eqn:E; [|reflexivity].
    assert (has_domain s h (h_domain s h) = true) by (apply has_domain_get; congruence). congruence. }
  destruct S as [S1 S2]. repeat split; intros; unfold h_t, h_n, h_n1, h_xn1; rewrite ?S1, ?S2; try reflexivity;
    unfold english; destruct (n =? 1)%Z; reflexivity.
Qed.

(** ** C36: handles are independent *)
Theorem C36_independent : forall s s' h, reach fmt norm s -> h < length (s_ts s) ->
  steps fmt norm (elsewhere h) s s' -> same_view fmt norm s h s' h.
Proof. intros s s' h R. apply elsewhere_view. eapply reach_wf, R. Qed.
(** what D, L and Global return *)
Theorem C36_D : forall s h d, reach fmt norm s -> h < length (s_ts s) ->
  let s' := snd (h_D s h d) in let h' := fst (h_D s h d) in
  same_view fmt norm (retarget s h d (h_locale s h)) h s' h' /\ same_view fmt norm s h s' h
  /\ forall h0, h0 < length (s_ts s) -> h' <> h0.
Proof.
  intros s h d R H. cbn zeta. pose proof (reach_wf norm fmt s R) as W. destruct (D_new fmt norm s h d W H) as [S K].
  split; [|split].
  - apply same_view_of; [apply retarget_wf, W|exact S|exact (keeps_retarget s h d _ _ K)].
  - destruct (D_frame fmt norm s h d h W H). apply same_view_of; assumption.
  - rewrite D_fst. lia.
Qed.
Theorem C36_L : forall s h l d, reach fmt norm s -> h < length (s_ts s) ->
  let s' := snd (h_L norm s h l d) in let h' := fst (h_L norm s h l d) in
  same_view fmt norm (retarget s h (h_domain s h) (match l with [] => d | _ => norm l end)) h s' h'
  /\ same_view fmt norm s h s' h
  /\ forall h0, h0 < length (s_ts s) -> h' <> h0.
Proof.
  intros s h l d R H. cbn zeta. pose proof (reach_wf norm fmt s R) as W. destruct (L_new fmt norm s h l d W H) as [S K].
  split; [|split].
  - apply same_view_of; [apply retarget_wf, W|exact S|exact (keeps_retarget s h _ _ _ K)].
  - destruct (L_frame fmt norm s h l d h W H). apply same_view_of; assumption.
  - rewrite L_fst. lia.
Qed.
Theorem C36_global : forall s, reach fmt norm s ->
  let s' := snd (g_clone s) in let h' := fst (g_clone s) in
  same_view fmt norm s (s_global s) s' h' /\ same_view fmt norm s (s_global s) s' (s_global s)
  /\ forall h0, h0 < length (s_ts s) -> h' <> h0.
Proof.
  intros s R. cbn zeta. pose proof (reach_wf norm fmt s R) as W. pose proof (w_global s W) as H. unfold g_clone.
  destruct (clone_frame s (s_global s) (s_global s) W H) as [F K]. split; [|split].
  - apply same_view_of; [exact W|apply clone_new; assumption|exact K].
  - apply same_view_of; assumption.
  - rewrite clone_fst. lia.
Qed.

(** ** C37: without a catalog the source text is used.
    Full statement: in every reachable state.  Missing: programs that load into
    the translation that GetOrNoop returns for an unknown domain. *)
Theorem C37_no_domain_partial : forall s h, reach_clean fmt norm s ->
  has_domain s h (h_domain s h) = false -> source_text fmt s h.
Proof.
  intros s h R N. apply no_domain; [eapply clean_noop, R|]. destruct (h_get s h (h_domain s h)) eqn:E; [|reflexivity].
  assert (has_domain s h (h_domain s h) = true) by (apply has_domain_get; congruence). congruence.
Qed.
Theorem C37_no_language : forall s h t, h_get s h (h_domain s h) = Some t ->
  tr_get (the_tr s t) (h_locale s h) = None -> source_text fmt s h.
Proof. intros s h t. apply no_catalog. Qed.
(** without the domain, exactly: from what was loaded into the translation that
    GetOrNoop returns for every unknown domain, if it has the language *)
Theorem C37_exactly : forall s h dom, has_domain s h (h_domain s h) = false -> has_domain s h dom = false ->
  match tr_get (the_tr s (h_get_or_noop s h dom)) (h_locale s h) with
  | Some x => answers_tor fmt s h x
  | None => source_text fmt s h
  end.
Proof.
  intros s h dom N N'.
  assert (E : forall d, has_domain s h d = false -> h_get_or_noop s h d = tr_noop).
  { intros d Hd. unfold h_get_or_noop. destruct (h_get s h d) eqn:E; [|reflexivity].
    assert (has_domain s h d = true) by (apply has_domain_get; congruence). congruence. }
  rewrite (E _ N'). pose proof (tor_answers fmt s h) as T. unfold the_tor in T. rewrite (E _ N) in T. unfold tr_get_or_noop in T. unfold tr_get.
  destruct (mget (h_locale s h) (tr_langs (the_tr s tr_noop))) as [x|]; exact T.
Qed.

(** ** C38: binding is all or nothing *)
Theorem C38_replaced : forall s h d wm wp l, reach fmt norm s -> h < length (s_ts s) ->
  some_loaded (B ".mo") wm \/ some_loaded (B ".po") wp ->
  let s' := bind_fs norm s h d wm wp in
  (exists f, wins norm l (catalogs (B ".mo") wm) (catalogs (B ".po") wp) f
     /\ answers_from fmt (retarget s' h d l) h f /\ used_locale (retarget s' h d l) h = l)
  \/ nobody norm l (catalogs (B ".mo") wm) (catalogs (B ".po") wp)
     /\ source_text fmt (retarget s' h d l) h /\ used_locale (retarget s' h d l) h = h_source s h.
Proof. intros s h d wm wp l R H L. apply bind_this; [eapply reach_wf, R|exact H|exact L]. Qed.
Theorem C38_rest : forall s h d wm wp, reach fmt norm s -> h < length (s_ts s) ->
  let s' := bind_fs norm s h d wm wp in
  h_domain s' h = h_domain s h /\ h_locale s' h = h_locale s h /\ h_source s' h = h_source s h
  /\ (forall d', d' <> d -> has_domain s' h d' = has_domain s h d')
  /\ (forall d' l, d' <> d -> same_answers fmt norm (retarget s h d' l) h (retarget s' h d' l) h)
  /\ (some_loaded (B ".mo") wm \/ some_loaded (B ".po") wp -> has_domain s' h d = true).
Proof.
  intros s h d wm wp R H. cbn zeta. pose proof (reach_wf norm fmt s R) as W.
  pose proof (bind_h norm s h d wm wp) as E. unfold h_domain, h_locale, h_source. rewrite E.
  repeat (split; [reflexivity|]). split; [|split].
  - intros d' N. apply (has_domain_eq norm). destruct (existsb okb (hits (B ".mo") wm ++ hits (B ".po") wp)) eqn:L.
    + apply some_loaded_iff in L. unfold h_get. rewrite (bind_domains norm s h d wm wp W H L). apply mget_put_other. congruence.
    + unfold h_get, h_domains. rewrite E. rewrite bind_fs_spec. cbn zeta. rewrite L. reflexivity.
  - intros d' l N. apply bind_others; assumption.
  - intros L. apply has_domain_get. unfold h_get. rewrite (bind_domains norm s h d wm wp W H L), mget_put_same. discriminate.
Qed.
Theorem C38_nothing : forall s h d wm wp, reach fmt norm s -> h < length (s_ts s) ->
  ~ (some_loaded (B ".mo") wm \/ some_loaded (B ".po") wp) ->
  same_view fmt norm s h (bind_fs norm s h d wm wp) h.
Proof. intros s h d wm wp R H. apply bind_none; [eapply reach_wf, R|exact H]. Qed.

(** ** C39: .po before .mo, the last one counts *)
Theorem C39_po_over_mo : forall s h d wm wp l, reach fmt norm s -> h < length (s_ts s) -> honest wm -> honest wp ->
  some_loaded (B ".mo") wm \/ some_loaded (B ".po") wp ->
  let s' := bind_fs norm s h d wm wp in
  let mos := readable (B ".mo") as_mo wm in let pos := readable (B ".po") as_po wp in
  (forall f, wins norm l mos pos f -> answers_from fmt (retarget s' h d l) h f)
  /\ ((forall f, ~ wins norm l mos pos f) -> source_text fmt (retarget s' h d l) h).
Proof.
  intros s h d wm wp l R H Hm Hp L. cbn zeta. rewrite <- (catalogs_mo wm Hm), <- (catalogs_po wp Hp).
  destruct (C38_replaced s h d wm wp l R H L) as [(f & Wn & An & _)|(N & S & _)]; split.
  - intros g Wg. rewrite (last_unique _ _ g f (proj2 (wins_app norm l _ _ g) Wg) (proj2 (wins_app norm l _ _ f) Wn)). exact An.
  - intros Q. exfalso. exact (Q f Wn).
  - intros g Wg. exfalso. apply wins_app in Wg. destruct Wg as (a & b & E & Sp & _). apply (N g); [|exact Sp].
    rewrite E. apply in_or_app. right. left. reflexivity.
  - intros _. exact S.
Qed.
(** LoadFS on any translation *)
Theorem C39_load : forall s t wm wp l, t < length (s_trs s) -> honest wm -> honest wp ->
  let s' := snd (load_fs norm s t wm wp) in
  let mos := readable (B ".mo") as_mo wm in let pos := readable (B ".po") as_po wp in
  (exists f a, wins norm l mos pos f /\ tr_get (the_tr s' t) l = Some (TFile a) /\ same_file f (the_file s' a))
  \/ nobody norm l mos pos /\ tr_get (the_tr s' t) l = tr_get (the_tr s t) l.
Proof.
  intros s t wm wp l H Hm Hp. cbn zeta. rewrite <- (catalogs_mo wm Hm), <- (catalogs_po wp Hp).
  rewrite load_fs_spec by exact H. cbn [snd].
  destruct (with_files_langs norm s t (catalogs (B ".mo") wm ++ catalogs (B ".po") wp) l H) as [(f & a & Wn & E & _ & Sm)|(N & E)].
  - left. exists f, a. split; [apply wins_app, Wn|auto].
  - right. split; [exact N|exact E].
Qed.
(** a file that cannot be opened, read or parsed is as if it were not there *)
Theorem C39_skipped : forall s t ext w1 w2 dir name o, t < length (s_trs s) ->
  match o with Some x => gives x = None | None => True end ->
  walk norm ext s t false (w1 ++ EEntry dir name o :: w2) = walk norm ext s t false (w1 ++ w2).
Proof.
  intros s t ext w1 w2 dir name o H N. rewrite !walk_spec by exact H. cbn [orb].
  assert (G : existsb okb (hits ext (w1 ++ EEntry dir name o :: w2)) = existsb okb (hits ext (w1 ++ w2))
              /\ catalogs ext (w1 ++ EEntry dir name o :: w2) = catalogs ext (w1 ++ w2)).
  { unfold catalogs. induction w1 as [|e w1 IH]; cbn [app].
    - cbn [hits]. destruct dir, o as [x|]; auto. destruct (has_suffix ext name); auto. cbn [existsb flat_map]. unfold okb.
      rewrite N. auto.
    - destruct IH as [I1 I2]. destruct e as [|dd nn [y|]]; cbn [hits]; auto; destruct dd; auto.
      destruct (has_suffix ext nn); auto. cbn [existsb flat_map]. rewrite I1, I2. auto. }
  destruct G as [-> ->]. reflexivity.
Qed.

(** ** C40: RemoveDomain and ClearDomains *)
Theorem C40_remove : forall s h d, reach fmt norm s -> h < length (s_ts s) ->
  let s' := snd (remove_domain s h d) in
  (fst (remove_domain s h d) = true <-> d <> [] /\ has_domain s h d = true)
  /\ (fst (remove_domain s h d) = false -> s' = s)
  /\ (fst (remove_domain s h d) = true ->
      has_domain s' h d = false /\ (forall d', d' <> d -> has_domain s' h d' = has_domain s h d')
      /\ h_locale s' h = h_locale s h /\ h_source s' h = h_source s h
      /\ h_domain s' h = (if beq (h_domain s h) d then B "default" else h_domain s h)
      /\ forall d' l, d' <> d -> same_answers fmt norm (retarget s h d' l) h (retarget s' h d' l) h).
Proof.
  intros s h d R H. cbn zeta. split; [apply (remove_true norm)|]. split; [apply remove_false|]. intros T.
  pose proof (reach_wf norm fmt s R) as W. destruct (remove_spec s h d W H T) as (G1 & G2 & G3 & G4 & G5 & G6 & G7).
  split. { destruct (has_domain _ h d) eqn:E; [|reflexivity]. apply has_domain_get in E. contradiction. }
  split; [intros d' N; apply (has_domain_eq norm), G2, N|]. split; [exact G3|]. split; [exact G4|]. split; [exact G5|].
  intros d' l N. apply same_answers_of; [apply retarget_wf, W|apply retarget_keeps, G7| | | |];
    rewrite ?retarget_locale, ?retarget_domain by assumption; auto.
  - unfold h_source. rewrite !retarget_ts by assumption. cbn [t_source]. symmetry. exact G4.
  - unfold h_get, h_domains. rewrite !retarget_ts by assumption. cbn [t_map]. symmetry. exact (G2 d' N).
Qed.
Theorem C40_clear : forall s h, h < length (s_ts s) ->
  let s' := clear_domains s h in
  (forall d, has_domain s' h d = false) /\ h_domain s' h = B "default"
  /\ h_locale s' h = h_locale s h /\ h_source s' h = h_source s h.
Proof.
  intros s h H. cbn zeta. destruct (clear_spec s h H) as (G1 & G2 & G3 & G4). split; [|auto].
  intros d. destruct (has_domain _ h d) eqn:E; [|reflexivity]. apply has_domain_get in E. rewrite G1 in E. contradiction.
Qed.

(** ** C41: Locales *)
Theorem C41_locales : forall s h out, locales norm s h out ->
  out <> [] /\ increasing out /\ In (h_source s h) out
  /\ forall x, In x out <-> x = h_source s h
       \/ exists l, tr_get (the_tr s (h_get_or_noop s h (h_domain s h))) l <> None /\ x = norm l.
Proof.
  intros s h out L. destruct (locales_spec norm s h out L) as [I E].
  assert (S : In (h_source s h) out) by (apply E; auto). split; [intros ->; destruct S|]. split; [exact I|]. split; [exact S|].
  intros x. rewrite E. unfold tr_get. split; (intros [Q|(l & Q & Q')]; [auto|right; exists l; split; [|exact Q']]).
  - intros N. apply mget_none in N. contradiction.
  - destruct (in_dec bytes_dec l (keys (tr_langs (the_tr s (h_get_or_noop s h (h_domain s h)))))) as [J|J]; [exact J|].
    apply mget_none in J. contradiction.
Qed.
(** whatever order the map is visited in *)
Theorem C41_unique : forall s h, exists out, locales norm s h out /\ forall out', locales norm s h out' -> out' = out.
Proof.
  intros s h. destruct (locales_exist norm s h) as (out & L). exists out. split; [exact L|].
  intros out' L'. exact (locales_unique norm s h out' out L' L).
Qed.
(** with an idempotent normalisation exactly the source locale and the names
    under which catalogs are found *)
Theorem C41_exact : forall s h out, reach_clean fmt norm s -> (forall x, norm (norm x) = norm x) -> locales norm s h out ->
  forall x, In x out <-> x = h_source s h
    \/ exists t, h_get s h (h_domain s h) = Some t /\ tr_get (the_tr s t) x <> None.
Proof.
  intros s h out R I L x. destruct (C41_locales s h out L) as (_ & _ & _ & E). rewrite E. unfold h_get_or_noop.
  assert (Nm : normed norm s) by (eapply reach_normed, reach_clean_reach, R).
  split; (intros [Q|Q]; [auto|right]).
  - destruct Q as (l & Q & ->). destruct (h_get s h (h_domain s h)) as [t|].
    + exists t. split; [reflexivity|]. destruct (tr_get (the_tr s t) l) as [y|] eqn:El; [|contradiction].
      destruct (Nm t l y El) as (l' & ->). rewrite I. congruence.
    + exfalso. apply Q. unfold tr_get. rewrite (clean_noop fmt norm s R). reflexivity.
  - destruct Q as (t & -> & Q). exists x. split; [exact Q|]. destruct (tr_get (the_tr s t) x) as [y|] eqn:El; [|contradiction].
    destruct (Nm t x y El) as (l' & ->). symmetry. apply I.
Qed.

(** ** C42: UsedLocale.
    Full statement: in every reachable state.  Missing as in C37. *)
Theorem C42_used_partial : forall s h, reach_clean fmt norm s ->
  (exists t x, h_get s h (h_domain s h) = Some t /\ tr_get (the_tr s t) (h_locale s h) = Some x
     /\ used_locale s h = h_locale s h /\ answers_tor fmt s h x)
  \/ (forall t, h_get s h (h_domain s h) = Some t -> tr_get (the_tr s t) (h_locale s h) = None)
     /\ used_locale s h = h_source s h /\ source_text fmt s h.
Proof.
  intros s h R. unfold used_locale. destruct (h_get s h (h_domain s h)) as [t|] eqn:D.
  - destruct (tr_get (the_tr s t) (h_locale s h)) as [x|] eqn:E.
    + left. exists t, x. repeat split; auto. rewrite <- (catalog_used s h t x D E). apply tor_answers.
    + right. split; [intros t' Q; congruence|]. split; [reflexivity|]. apply (no_catalog fmt s h t D E).
  - right. split; [discriminate|]. split; [reflexivity|]. apply no_domain; [eapply clean_noop, R|exact D].
Qed.
(** in every state: the claim holds exactly if the domain is loaded or the
    shared translation has nothing for the language; otherwise UsedLocale says
    the source locale while the texts come from the shared translation *)
Theorem C42_exactly : forall s h,
  match h_get s h (h_domain s h) with
  | Some t => match tr_get (the_tr s t) (h_locale s h) with
              | Some x => used_locale s h = h_locale s h /\ answers_tor fmt s h x
              | None => used_locale s h = h_source s h /\ source_text fmt s h
              end
  | None => used_locale s h = h_source s h
      /\ forall dom, has_domain s h dom = false ->
         match tr_get (the_tr s (h_get_or_noop s h dom)) (h_locale s h) with
         | Some x => answers_tor fmt s h x
         | None => source_text fmt s h
         end
  end.
Proof.
  intros s h. unfold used_locale. destruct (h_get s h (h_domain s h)) as [t|] eqn:D.
  - destruct (tr_get (the_tr s t) (h_locale s h)) as [x|] eqn:E.
    + split; [reflexivity|]. rewrite <- (catalog_used s h t x D E). apply tor_answers.
    + split; [reflexivity|]. apply (no_catalog fmt s h t D E).
  - split; [reflexivity|]. intros dom N. apply C37_exactly; [|exact N].
    destruct (has_domain s h (h_domain s h)) eqn:H; [|reflexivity]. apply has_domain_get in H. congruence.
Qed.
(** UsedLocale is a member of Locales *)
Theorem C42_listed : forall s h out, reach fmt norm s -> (forall x, norm (norm x) = norm x) -> locales norm s h out ->
  In (used_locale s h) out.
Proof.
  intros s h out R I L. destruct (C41_locales s h out L) as (_ & _ & S & E). unfold used_locale.
  destruct (h_get s h (h_domain s h)) as [t|] eqn:D; [|exact S].
  destruct (tr_get (the_tr s t) (h_locale s h)) as [y|] eqn:El; [|exact S]. apply E. right. exists (h_locale s h).
  unfold h_get_or_noop. rewrite D. split; [congruence|].
  destruct (reach_normed norm fmt s R t _ y El) as (l' & Q). rewrite Q, I. reflexivity.
Qed.

(** ** C43: MostMatchLocale.
    Full statement: for every handle.  Holds of handles that agree with the
    global one (the method asks that one). *)
Theorem C43_match_partial : forall mtch, (forall supported wanted, supported <> [] -> mtch supported wanted < length supported) ->
  forall s h out, same_at fmt norm s (s_global s) s h -> most_match_locale norm mtch s h out ->
  exists ls l, locales norm s h ls /\ In l ls /\ out = Some l /\ nth_error ls (mtch ls [h_locale s h]) = Some l.
Proof.
  intros mtch M s h out (El & _ & _ & _ & _ & Ls & _) (ls & L & ->). exists ls. apply Ls in L as L'.
  destruct (C41_locales s h ls L') as (Ne & _). specialize (M ls [h_locale s (s_global s)] Ne).
  destruct (nth_error ls (mtch ls [h_locale s (s_global s)])) as [l|] eqn:E; [|apply nth_error_None in E; lia].
  exists l. rewrite <- El. split; [exact L'|]. split; [eapply nth_error_In, E|auto].
Qed.
(** exactly: for every handle, the choice among the Locales of the global handle
    for the Locale of the global handle *)
Theorem C43_global : forall mtch, (forall supported wanted, supported <> [] -> mtch supported wanted < length supported) ->
  forall s h out, most_match_locale norm mtch s h out <->
  exists ls l, locales norm s (s_global s) ls /\ In l ls /\ out = Some l /\ nth_error ls (mtch ls [h_locale s (s_global s)]) = Some l.
Proof.
  intros mtch M s h out. split.
  - intros (ls & L & ->). destruct (C41_locales s (s_global s) ls L) as (Ne & _). specialize (M ls [h_locale s (s_global s)] Ne).
    destruct (nth_error ls (mtch ls [h_locale s (s_global s)])) as [l|] eqn:E; [|apply nth_error_None in E; lia].
    exists ls, l. split; [exact L|]. split; [eapply nth_error_In, E|auto].
  - intros (ls & l & L & _ & -> & E). exists ls. auto.
Qed.

(** ** C44: a catalog is found under its language *)
Theorem C44_found : forall s t x s2 h dom l' d, reach fmt norm s -> t < length (s_trs s) -> tor_known s x ->
  let l := language_of s x in
  l <> [] -> steps fmt norm (fun s o => ~ puts norm t (norm l) s o) (snd (add_or_replace norm s t x)) s2 ->
  h < length (s_ts s2) -> h_get s2 h dom = Some t -> l' <> [] -> norm l' = norm l ->
  let s3 := set_locale norm (set_domain s2 h dom) h l' d in
  answers_tor fmt s3 h x /\ used_locale s3 h = norm l.
Proof.
  intros s t x s2 h dom l' d R Ht Kx. rewrite language_named. cbn zeta. intros Ne St H D Ne' El.
  pose proof (reach_wf norm fmt s R) as W. assert (W1 : wf (snd (add_or_replace norm s t x))) by (apply wf_add; assumption).
  destruct (add_get norm fmt s t x (norm (fst (tor_lang s x))) Ht) as (G1 & _ & _). specialize (G1 Ne eq_refl).
  assert (Ht1 : t < length (s_trs (snd (add_or_replace norm s t x)))).
  { pose proof (trs_grow norm fmt s (OAdd t x) W (conj Ht Kx)) as G. cbn [do_op] in G. lia. }
  pose proof (stays norm fmt _ _ _ _ _ W1 St Ht1 G1) as G.
  set (s3 := set_locale norm (set_domain s2 h dom) h l' d).
  assert (T : the_ts s3 h = {| t_locale := norm l'; t_domain := dom; t_map := t_map (the_ts s2 h); t_source := t_source (the_ts s2 h) |}).
  { assert (T1 : the_ts (set_domain s2 h dom) h = {| t_locale := t_locale (the_ts s2 h); t_domain := dom; t_map := t_map (the_ts s2 h); t_source := t_source (the_ts s2 h) |})
      by (apply set_ts_at, H).
    unfold s3, set_locale. rewrite T1. cbn [t_domain t_map t_source]. destruct l' as [|c r]; [contradiction|].
    apply set_ts_at. unfold set_domain, set_ts. cbn [s_ts]. rewrite upd_length. exact H. }
  assert (D3 : h_get s3 h (h_domain s3 h) = Some t).
  { unfold h_get, h_domains, h_domain. rewrite T. cbn [t_map t_domain]. exact D. }
  assert (L3 : tr_get (the_tr s3 t) (h_locale s3 h) = Some x).
  { unfold h_locale. rewrite T. cbn [t_locale]. rewrite El. exact G. }
  split.
  - rewrite <- (catalog_used s3 h t x D3 L3). apply tor_answers.
  - unfold used_locale. rewrite D3, L3. unfold h_locale. rewrite T. exact El.
Qed.
(** AddOrReplace returns the previous catalog and touches no other language *)
Theorem C44_previous : forall s t x, t < length (s_trs s) ->
  let l := language_of s x in
  (l <> [] -> fst (add_or_replace norm s t x) = tr_get (the_tr s t) (norm l))
  /\ (l = [] -> fst (add_or_replace norm s t x) = None)
  /\ forall t' l', t' <> t \/ l = [] \/ norm l <> l' ->
       tr_get (the_tr (snd (add_or_replace norm s t x)) t') l' = tr_get (the_tr s t') l'.
Proof.
  intros s t x H. rewrite language_named. cbn zeta. destruct (add_get norm fmt s t x [] H) as (_ & _ & G). rewrite G. split; [|split].
  - destruct (fst (tor_lang s x)); [contradiction|reflexivity].
  - intros ->. reflexivity.
  - intros t' l' Q. destruct (add_get norm fmt s t x l' H) as (_ & G2 & _). apply G2, Q.
Qed.

(** ** C45: contexts *)
Theorem C45_with_context : forall s c d lo dom, reach fmt norm s -> private c ->
  most_recent c KLang lo -> most_recent c KDomain dom ->
  let g := s_global s in
  let s' := snd (with_context norm s c d) in let h' := fst (with_context norm s c d) in
  same_view fmt norm
    (retarget s g (match dom with Some x => x | None => h_domain s g end)
                  (match lo with Some [] => d | Some l => norm l | None => h_locale s g end)) g s' h'
  /\ same_view fmt norm s g s' g /\ forall h0, h0 < length (s_ts s) -> h' <> h0.
Proof.
  intros s c d lo dom R P Ml Md. cbn zeta. pose proof (reach_wf norm fmt s R) as W.
  pose proof (with_new fmt norm s c d W) as N. cbn zeta in N.
  assert (El : get_ctx_locale c = lo) by (eapply most_recent_unique; [apply most_recent_get; auto|exact Ml]).
  assert (Ed : get_ctx_domain c = dom) by (eapply most_recent_unique; [apply most_recent_get; auto|exact Md]).
  rewrite El, Ed in N. destruct N as (S & K & Lt). split; [|split].
  - replace (match lo with Some [] => d | Some l => norm l | None => h_locale s (s_global s) end)
      with (match lo with Some l => spelled norm l d | None => h_locale s (s_global s) end) by (destruct lo as [[|]|]; reflexivity).
    apply same_view_of; [apply retarget_wf, W|exact S|exact (keeps_retarget s _ _ _ _ K)].
  - destruct (with_frame fmt norm s c d (s_global s) W (w_global s W)). apply same_view_of; assumption.
  - lia.
Qed.
Theorem C45_separate : forall c l d k v,
  get_ctx_domain (set_ctx_locale c l) = get_ctx_domain c
  /\ get_ctx_locale (set_ctx_domain c d) = get_ctx_locale c
  /\ get_ctx_locale (set_ctx_locale c l) = Some l /\ get_ctx_domain (set_ctx_domain c d) = Some d
  /\ get_ctx_locale (CValue c (KOther k) v) = get_ctx_locale c /\ get_ctx_domain (CValue c (KOther k) v) = get_ctx_domain c.
Proof. intros. repeat split. Qed.

(** ** C47: GetUserLang *)
Theorem C47_user_lang : forall mtch, (forall supported accept, supported <> [] -> mtch supported accept < length supported) ->
  forall s cookie accept opts out, get_user_lang norm mtch s cookie accept opts out ->
  match cookie (last opts (B "lang")) with
  | Some v => out = Some v
  | None => exists ls l, locales norm s (s_global s) ls /\ In l ls /\ out = Some l
  end.
Proof.
  intros mtch M s cookie accept opts out G. unfold get_user_lang in G.
  assert (E : fold_left (fun _ o => o) opts (B "lang") = last opts (B "lang")).
  { generalize (B "lang") as z. clear. induction opts as [|x r IH]; intros z; [reflexivity|]. cbn [fold_left]. rewrite IH.
    destruct r as [|y r]; [reflexivity|]. cbn [last]. clear. revert y. induction r as [|w r IH]; intros y; [reflexivity|]. exact (IH w). }
  rewrite E in G. destruct (cookie (last opts (B "lang"))); [exact G|].
  destruct G as (ls & L & ->). exists ls. destruct (C41_locales s (s_global s) ls L) as (Ne & _). specialize (M ls accept Ne).
  destruct (nth_error ls (mtch ls accept)) as [l|] eqn:Q; [|apply nth_error_None in Q; lia].
  exists l. split; [exact L|]. split; [eapply nth_error_In, Q|reflexivity].
Qed.
End Props.

(** ** C46: the tag cache *)
Theorem C46_transparent : forall (T : Type) (make : bytes -> T) c l t,
  execution make c -> In (Done l t) (calls c) -> t = make l.
Proof. intros T make c l t E I. destruct (execution_good make c E) as [_ C]. exact (C _ I). Qed.
(** every call returns after two steps of its own, whatever the others do in
    between *)
Theorem C46_returns : forall (T : Type) (make : bytes -> T) m m' l,
  exists t, snd (call_step make m' (snd (call_step make m (Start l)))) = Done l t.
Proof. intros T make m m' l. cbn [call_step]. destruct (mget l m) as [t|]; cbn [snd call_step]; eexists; reflexivity. Qed.
(** Tags, with any contents of the cache an execution leaves *)
Theorem C46_tags : forall (T : Type) (make : bytes -> T) c ls,
  execution make c -> snd (tags make (cache c) ls) = map make ls.
Proof. intros T make c ls E. apply tags_good, (execution_good make c E). Qed.

(** ** Examples and counterexamples *)
Example C17_case : reach_clean ex_fmt ex_norm ex0 /\ has_domain ex0 0 (h_domain ex0 0) = false.
Proof. split; [apply RC_init|reflexivity]. Qed.
Print Assumptions C17_noop.
Print Assumptions C17_handle.

Lemma steps_fold P : forall ops s, (forall a o b, ops = a ++ o :: b -> known (fold_left ex_do a s) o /\ P (fold_left ex_do a s) o) ->
  steps ex_fmt ex_norm P s (fold_left ex_do ops s).
Proof.
  induction ops as [|o ops IH]; intros s H; [apply St_refl|]. destruct (H [] o ops eq_refl) as [K Q].
  cbn [fold_left]. eapply St_step; [exact K|exact Q|]. apply IH. intros a o' b E. exact (H (o :: a) o' b (f_equal (cons o) E)).
Qed.
(** two handles; the second one is changed in every way, the first one still
    says ni hao *)
Definition ex_walk2 : list event := [ex_event "zh.po" (ex_po "zh" "nin hao")].
Definition ex_ops : list (@op unit) :=
  [OD 0 (B "default"); OBind 1 (B "default") [] ex_walk2; OBind 1 (B "other") [] ex_walk; ORemove 1 (B "other"); OSetLocale 1 (B "de") []; OClear 1].
Example C36_case : steps ex_fmt ex_norm (elsewhere 0) ex1 (fold_left ex_do ex_ops ex1)
  /\ h_x ex_fmt (fold_left ex_do (firstn 2 ex_ops) ex1) 1 [] (B "hi") [] = B "nin hao"
  /\ h_x ex_fmt (fold_left ex_do ex_ops ex1) 0 [] (B "hi") [] = B "ni hao".
Proof.
  split; [|split; vm_compute; reflexivity]. apply steps_fold. unfold ex_ops. intros a o b E.
  repeat (destruct a as [|? a]; cbn [app] in E; injection E as <- E; [cbn [fold_left]; split; [vm_compute; lia|split; [intros []|discriminate]]|]).
  destruct a; discriminate.
Qed.
Print Assumptions C36_independent.
Print Assumptions C36_D.
Print Assumptions C36_L.
Print Assumptions C36_global.

Example C37_case : reach_clean ex_fmt ex_norm (ex_do ex1 (OSetDomain 0 (B "nope")))
  /\ has_domain (ex_do ex1 (OSetDomain 0 (B "nope"))) 0 (h_domain (ex_do ex1 (OSetDomain 0 (B "nope"))) 0) = false.
Proof. split; [apply RC_step; [apply ex1_reach|vm_compute; lia|intros []]|vm_compute; reflexivity]. Qed.
(** GetOrNoop("nope").LoadPo(...) makes every unknown domain speak zh *)
Theorem C37_noop_refuted : exists s h, reach ex_fmt ex_norm s /\ h < length (s_ts s)
  /\ has_domain s h (h_domain s h) = false /\ h_x ex_fmt s h [] (B "hi") [] <> B "hi".
Proof.
  exists (ex_do ex0 (OLoadPo (h_get_or_noop ex0 0 (B "nope")) (ex_po "zh" "ni hao"))), 0.
  split; [apply R_step; [apply R_init|vm_compute; lia]|]. split; [vm_compute; lia|]. split; [reflexivity|]. vm_compute. discriminate.
Qed.
Print Assumptions C37_no_domain_partial.
Print Assumptions C37_no_language.
Print Assumptions C37_exactly.
Print Assumptions C37_noop_refuted.

Example C38_case : some_loaded (B ".po") ex_walk /\ ~ some_loaded (B ".po") [ex_event "zh.po" (B "msgid")].
Proof.
  split.
  - exists {| ff_name := Some (B "zh.po"); ff_content := Some (ex_po "zh" "ni hao") |}. split; [left; reflexivity|vm_compute; discriminate].
  - intros (x & [<-|[]] & H). apply H. vm_compute. reflexivity.
Qed.
Print Assumptions C38_replaced.
Print Assumptions C38_rest.
Print Assumptions C38_nothing.

Lemma ex_honest : honest ex_walk.
Proof. intros dir name x [H|[H|[]]]; [discriminate|]. injection H as <- <- <-. reflexivity. Qed.
Example C39_case : exists f, wins ex_norm (B "zh") [] (readable (B ".po") as_po ex_walk) f /\ honest ex_walk.
Proof.
  eexists. split; [|exact ex_honest]. left. exists [], []. split; [vm_compute; reflexivity|].
  split; [split; [vm_compute; discriminate|vm_compute; reflexivity]|intros y []].
Qed.
Print Assumptions C39_po_over_mo.
Print Assumptions C39_load.
Print Assumptions C39_skipped.

Example C40_case : fst (remove_domain ex1 0 (B "default")) = true /\ has_domain ex1 0 (B "default") = true.
Proof. vm_compute. auto. Qed.
Print Assumptions C40_remove.
Print Assumptions C40_clear.

Example C41_case : locales ex_norm ex1 0 [B "en_US"; B "zh"].
Proof.
  exists [B "zh"]. split; [vm_compute; repeat constructor|]. split; [vm_compute; repeat constructor|].
  cbn [sorted_strings]. repeat split; intros y; [intros [<-|[]]|intros []]. vm_compute. reflexivity.
Qed.
Print Assumptions C41_locales.
Print Assumptions C41_unique.
Print Assumptions C41_exact.

Example C42_case : used_locale ex1 0 = B "zh" /\ h_source ex1 0 = B "en_US".
Proof. vm_compute. auto. Qed.
(** as in C37: UsedLocale says en_US, the texts are zh *)
Theorem C42_noop_refuted : exists s h, reach ex_fmt ex_norm s /\ h < length (s_ts s)
  /\ used_locale s h = h_source s h /\ h_locale s h <> h_source s h /\ h_x ex_fmt s h [] (B "hi") [] <> B "hi".
Proof.
  exists (ex_do ex0 (OLoadPo (h_get_or_noop ex0 0 (B "nope")) (ex_po "zh" "ni hao"))), 0.
  split; [apply R_step; [apply R_init|vm_compute; lia]|]. split; [vm_compute; lia|]. split; [reflexivity|]. split; vm_compute; discriminate.
Qed.
Print Assumptions C42_used_partial.
Print Assumptions C42_exactly.
Print Assumptions C42_listed.
Print Assumptions C42_noop_refuted.

(** a handle of its own with source locale de and catalog zh gets en_US *)
Definition ex_match (supported wanted : list bytes) : nat := 0.
Theorem C43_match_refuted : exists s h out, reach ex_fmt ex_norm s /\ h < length (s_ts s)
  /\ most_match_locale ex_norm ex_match s h (Some out)
  /\ forall ls, locales ex_norm s h ls -> ~ In out ls.
Proof.
  exists (fold_left ex_do [ONew (B "zh"); OBind 1 (B "default") [] ex_walk; OSetSource 1 (B "de")] ex0), 1, (B "en_US").
  split; [cbn [fold_left]; repeat (apply R_step; [|solve [exact I | vm_compute; lia]]); apply R_init|]. split; [vm_compute; lia|]. split.
  - exists [B "en_US"]. split; [|reflexivity]. exists []. split; [vm_compute; constructor|]. split; [vm_compute; repeat constructor|].
    cbn [sorted_strings]. split; [intros y []|exact I].
  - intros ls L. destruct (C41_locales ex_norm _ _ _ L) as (_ & _ & _ & E). rewrite E.
    intros [Q|(l & Q & Q')]; [vm_compute in Q; discriminate|]. apply Q.
    change (ex_norm l) with l in Q'. rewrite <- Q'. vm_compute. reflexivity.
Qed.
Example C43_case : same_at ex_fmt ex_norm ex1 (s_global ex1) ex1 0 /\ (forall supported wanted, supported <> [] -> ex_match supported wanted < length supported).
Proof.
  split; [repeat split; auto|]. intros [|x r] w H; [contradiction|]. cbn. unfold ex_match. lia.
Qed.
Print Assumptions C43_match_partial.
Print Assumptions C43_global.
Print Assumptions C43_match_refuted.

Example C44_case : let u := TUser {| u_lang := B "de"; u_x := fun _ _ _ => B "hallo"; u_xn := fun _ _ _ _ _ => B "hallo" |} in
  reach ex_fmt ex_norm ex1 /\ 1 < length (s_trs ex1) /\ language_of ex1 u <> [] /\ h_get ex1 0 (B "default") = Some 1
  /\ steps ex_fmt ex_norm (fun s o => ~ puts ex_norm 1 (B "de") s o) (snd (add_or_replace ex_norm ex1 1 u))
       (ex_do (snd (add_or_replace ex_norm ex1 1 u)) (OLoadPo 1 (ex_po "zh" "ni hao"))).
Proof.
  cbn zeta. split; [eapply reach_clean_reach, ex1_reach|]. split; [vm_compute; lia|]. split; [discriminate|]. split; [vm_compute; reflexivity|].
  eapply (St_step _ _ _ _ (OLoadPo 1 (ex_po "zh" "ni hao"))); [vm_compute; lia| |apply St_refl]. cbn [puts]. intros (_ & f & E & _ & Q).
  vm_compute in E. injection E as <-. vm_compute in Q. discriminate.
Qed.
Print Assumptions C44_found.
Print Assumptions C44_previous.

Example C45_case : let c := set_ctx_locale (CValue (set_ctx_domain (set_ctx_locale CBackground (B "de")) (B "x")) (KOther 3) (VOther 4)) (B "zh") in
  private c /\ most_recent c KLang (Some (B "zh")) /\ most_recent c KDomain (Some (B "x")).
Proof.
  cbn zeta. split; [|split].
  - intros k v [H|[H|[H|[H|[]]]]] K; injection H as <- <-; eauto. destruct K; discriminate.
  - exists [], [(KOther 3, VOther 4); (KDomain, VString (B "x")); (KLang, VString (B "de"))]. split; [reflexivity|intros v []].
  - exists [(KLang, VString (B "zh")); (KOther 3, VOther 4)], [(KLang, VString (B "de"))]. split; [reflexivity|].
    intros v [H|[H|[]]]; discriminate.
Qed.
Print Assumptions C45_with_context.
Print Assumptions C45_separate.

Lemma e_step {T} (make : bytes -> T) c i x : execution make c -> nth_error (calls c) i = Some x ->
  execution make {| cache := fst (call_step make (cache c) x); calls := replace i (snd (call_step make (cache c) x)) (calls c) |}.
Proof. intros E H. exact (E_step _ _ _ E (S_step _ _ _ _ H)). Qed.
Example C46_case : exists c, execution (fun l => length l) c /\ calls c = [Done (B "en") 2; Done (B "en") 2].
Proof.
  pose proof (E_init (fun l : bytes => length l)) as E0.
  pose proof (E_step _ _ _ E0 (S_call _ _ (B "en"))) as E1. pose proof (E_step _ _ _ E1 (S_call _ _ (B "en"))) as E2.
  pose proof (e_step _ _ 0 _ E2 eq_refl) as E3. pose proof (e_step _ _ 1 _ E3 eq_refl) as E4.
  pose proof (e_step _ _ 0 _ E4 eq_refl) as E5. pose proof (e_step _ _ 1 _ E5 eq_refl) as E6.
  eexists. split; [exact E6|reflexivity].
Qed.
Print Assumptions C46_transparent.
Print Assumptions C46_returns.
Print Assumptions C46_tags.

Example C47_case : get_user_lang ex_norm (fun _ _ => 1) ex1 (fun n => None) (B "zh") [B "a"; B "b"] (Some (B "zh"))
  /\ get_user_lang ex_norm (fun _ _ => 0) ex1 (fun n => if beq n (B "b") then Some (B "fr") else None) (B "zh") [B "a"; B "b"] (Some (B "fr")).
Proof. split; [exists [B "en_US"; B "zh"]; split; [exact C41_case|reflexivity]|reflexivity]. Qed.
Print Assumptions C47_user_lang.

(** ** C56: an unreadable directory does not hide the other files.
    Full statement: every file of the tree counts.  Missing: the walk stops at
    the first error, the files that would come later are not seen. *)
Fixpoint files_of (ext : bytes) (w : list event) : list fsfile :=
  match w with
  | [] => []
  | EErr :: r => files_of ext r
  | EEntry dir name o :: r =>
      match o with
      | Some x => if negb dir && has_suffix ext name then x :: files_of ext r else files_of ext r
      | None => files_of ext r
      end
  end.
Theorem C56_all_files_partial : forall (A : Type) norm (s : @state A) t w ext, t < length (s_trs s) ->
  ~ In EErr w -> (fst (walk norm ext s t false w) = true <-> exists x, In x (files_of ext w) /\ gives x <> None)
  /\ hits ext w = files_of ext w.
Proof.
  intros A norm s t w ext H N. rewrite walk_spec by exact H. cbn [orb fst].
  assert (E : hits ext w = files_of ext w).
  { induction w as [|[|dir name o] w IH]; [reflexivity|exfalso; apply N; left; reflexivity|].
    assert (N' : ~ In EErr w) by (intros Q; apply N; right; exact Q). specialize (IH N').
    cbn [hits files_of]. destruct dir, o as [x|]; cbn [negb andb]; auto. destruct (has_suffix ext name); auto. f_equal. exact IH. }
  split; [|exact E]. rewrite E, existsb_exists. unfold okb. split; intros (x & I & G); exists x; (split; [exact I|]); destruct (gives x); congruence.
Qed.
Theorem C56_directory_refuted : exists w x, In x (files_of (B ".po") w) /\ gives x <> None
  /\ has_domain (bind_fs ex_norm ex0 0 (B "default") [] w) 0 (B "default") = false.
Proof.
  exists (EErr :: ex_walk), {| ff_name := Some (B "zh.po"); ff_content := Some (ex_po "zh" "ni hao") |}.
  split; [left; reflexivity|]. split; [vm_compute; discriminate|vm_compute; reflexivity].
Qed.
Example C56_case : ~ In EErr ex_walk /\ files_of (B ".po") ex_walk <> [].
Proof. split; [intros [H|[H|[]]]; discriminate|vm_compute; discriminate]. Qed.
Print Assumptions C56_all_files_partial.
Print Assumptions C56_directory_refuted.
