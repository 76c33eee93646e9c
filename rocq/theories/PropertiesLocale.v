(** C75: language names. *)
From Coq Require Import List Lia.
From Verif Require Import GoStr GoStrFacts GoMap FileModel PoModel MoModel TransModel TransSpec TransFacts GoMapFacts LocaleModel LocaleSpec LocaleFacts.
Import ListNotations.
Section C75.
Context {A : Type}.
Variable fmt : bytes -> list A -> bytes.
Variable tag : Type.
Variable make : bytes -> tag.
Variable base region : tag -> bytes.
Notation norm := (normalize tag make base region).
Notation name_of := (normalize_tag tag base region).
(** the system's language is some tag *)
Definition of_tag (l : bytes) : Prop := exists t, l = get_default tag base region t.
Notation reach_on := (reach_on fmt norm of_tag).
(** Every language name a handle shows is ll_CC, whatever names the program,
    the catalogs and the system use, if x/text's codes are ISO codes. *)
Theorem C75_form : (forall t, language_code (base t)) -> (forall t, region_code (region t)) ->
  forall s h, reach_on s -> h < length (s_ts s) ->
  ll_CC (h_locale s h) /\ ll_CC (h_source s h) /\ ll_CC (used_locale s h)
  /\ (forall out, locales norm s h out -> Forall ll_CC out)
  /\ forall mtch out, most_match_locale norm mtch s h (Some out) -> s_global s < length (s_ts s) -> ll_CC out.
Proof.
  intros Hb Hr s h R H.
  assert (T : forall t, ll_CC (name_of t)) by (intros t; exists (base t), (region t); auto).
  assert (E : ll_CC default_source).
  { exists (B "en"), (B "US"). split; [reflexivity|]. split; [split; [left; reflexivity|]|left; split; [reflexivity|]];
      repeat constructor; vm_compute; discriminate. }
  assert (N := names fmt norm of_tag ll_CC (fun l => T (make l)) (fun d Q => match Q with ex_intro _ t e => eq_ind_r ll_CC (T t) e end) E s).
  destruct (N h R H) as (N1 & N2 & N3 & N4). repeat (split; [assumption|]).
  intros mtch out (sup & L & Q) G. destruct (N (s_global s) R G) as (_ & _ & _ & M). specialize (M sup L). rewrite Forall_forall in M.
  apply M. symmetry in Q. apply nth_error_In in Q. exact Q.
Qed.
(** If x/text reads the name of a tag as that language and region, names are in
    normal form: normalising again changes nothing. *)
Theorem C75_canonical : (forall t, base (make (name_of t)) = base t /\ region (make (name_of t)) = region t) ->
  (exists t, name_of t = B "en_US") ->
  (forall l, norm (norm l) = norm l)
  /\ forall s h, reach_on s -> h < length (s_ts s) ->
     norm (h_locale s h) = h_locale s h /\ norm (h_source s h) = h_source s h /\ norm (used_locale s h) = used_locale s h
     /\ forall out, locales norm s h out -> Forall (fun l => norm l = l) out.
Proof.
  intros St En. assert (T : forall t, norm (name_of t) = name_of t).
  { intros t. unfold normalize. unfold normalize_tag at 1. destruct (St t) as [-> ->]. reflexivity. }
  split; [intros l; apply T|]. intros s h R H.
  apply (names fmt norm of_tag (fun l => norm l = l)); auto.
  - intros l. apply T.
  - intros d (t & ->). apply T.
  - destruct En as (t & E). change default_source with (B "en_US"). rewrite <- E. apply T.
Qed.
(** Spellings with the same language and region are interchangeable: for
    choosing a language, and for finding a catalog that names its language
    differently. *)
Theorem C75_spellings : forall a b, base (make a) = base (make b) -> region (make a) = region (make b) -> a <> [] -> b <> [] ->
  forall (s : @state A) h d,
  h_L norm s h a d = h_L norm s h b d /\ set_locale norm s h a d = set_locale norm s h b d /\ set_source norm s h a = set_source norm s h b
  /\ forall t x, t < length (s_trs s) -> h < length (s_ts s) -> language_of s x = a -> h_get s h (h_domain s h) = Some t ->
     the_tor (set_locale norm (snd (add_or_replace norm s t x)) h b d) h = x.
Proof.
  intros a b Eb Er Na Nb s h d. assert (E : norm a = norm b) by (unfold normalize, normalize_tag; congruence).
  assert (L : forall (s : @state A) h, set_locale norm s h a d = set_locale norm s h b d).
  { intros s1 h1. unfold set_locale. destruct a, b; try congruence; rewrite E; reflexivity. }
  split; [|split; [apply L|split; [unfold set_source; rewrite E; reflexivity|]]].
  - unfold h_L. destruct (clone s h). rewrite L. reflexivity.
  - intros t x Ht Hh Hx Hg. rewrite language_named in Hx. rewrite <- L. unfold add_or_replace.
    assert (T : s_ts (snd (tor_lang s x)) = s_ts s /\ s_maps (snd (tor_lang s x)) = s_maps s /\ s_trs (snd (tor_lang s x)) = s_trs s)
      by (destruct x; repeat split).
    destruct (tor_lang s x) as [l s1]. cbn [fst snd] in *. subst l. destruct T as (T1 & T2 & T3). destruct a as [|c a]; [congruence|]. cbn [snd].
    set (s2 := set_tr _ _ _). unfold the_tor, set_locale. set (r := {| t_locale := _ |}).
    assert (Hr : the_ts (set_ts s2 h r) h = r).
    { unfold the_ts, set_ts. cbn [s_ts]. apply nth_upd_same. unfold s2. cbn [set_tr s_ts]. rewrite T1. exact Hh. }
    assert (Hd : h_get_or_noop (set_ts s2 h r) h (h_domain (set_ts s2 h r) h) = t).
    { unfold h_get_or_noop, h_get, h_domains, h_domain. rewrite Hr. unfold r. cbn [t_domain t_map the_map set_ts s_maps].
      unfold the_map, the_ts, s2. cbn [set_ts set_tr s_maps s_ts]. rewrite T1, T2. unfold h_get, h_domains, h_domain, the_map, the_ts in Hg. rewrite Hg. reflexivity. }
    rewrite Hd. unfold h_locale. rewrite Hr. unfold r. cbn [t_locale]. unfold tr_get_or_noop, the_tr, set_ts, s2. cbn [set_tr s_trs].
    rewrite nth_upd_same by (rewrite T3; exact Ht). cbn [tr_langs]. rewrite mget_put_same. reflexivity.
Qed.
(** The name GetUserLang finds in a cookie is not normalised, but the handle for it is. *)
Theorem C75_user_lang : (forall t, language_code (base t)) -> (forall t, region_code (region t)) ->
  forall s mtch cookie accept opts l d, reach_on s -> get_user_lang norm mtch s cookie accept opts (Some l) ->
  (cookie (last opts (B "lang")) = Some l \/ ll_CC l)
  /\ (l <> [] -> h_locale (snd (h_L norm s (s_global s) l d)) (fst (h_L norm s (s_global s) l d)) = norm l).
Proof.
  intros Hb Hr s mtch cookie accept opts l d R G.
  assert (W : wf s) by (apply (reach_wf norm fmt), (reach_on_reach fmt norm of_tag), R).
  split.
  - unfold get_user_lang in G. replace (fold_left (fun _ o : bytes => o) opts (B "lang")) with (last opts (B "lang")) in G.
    2:{ clear. generalize (B "lang") as x. induction opts as [|y opts IH]; intros x; [reflexivity|]. cbn [fold_left]. rewrite <- IH.
        destruct opts as [|z opts]; [reflexivity|]. clear IH. revert z. induction opts as [|w opts IH]; intros z; [reflexivity|]. apply (IH w). }
    destruct (cookie (last opts (B "lang"))) as [v|]; [left; congruence|right]. destruct G as (ls & L & Q).
    destruct (C75_form Hb Hr s (s_global s) R (w_global s W)) as (_ & _ & _ & M & _). specialize (M ls L). rewrite Forall_forall in M.
    apply M. symmetry in Q. exact (nth_error_In _ _ Q).
  - intros Nl. unfold h_L. rewrite clone_eq. cbn [fst snd]. unfold set_locale, h_locale, the_ts, set_ts. cbn [s_ts].
    rewrite nth_upd_same by (cbn [fresh s_ts]; rewrite app_length; cbn [length]; lia). destruct l; [congruence|reflexivity].
Qed.
End C75.
Print Assumptions C75_form. Print Assumptions C75_canonical. Print Assumptions C75_spellings. Print Assumptions C75_user_lang.

(** a small x/text: three languages *)
Inductive ex_tag := En | Zh | De.
Definition ex_make (l : bytes) : ex_tag :=
  if existsb (beq l) [B "zh"; B "zh-CN"; B "zh_CN"; B "zh-Hans"] then Zh else if existsb (beq l) [B "de"; B "de_DE"; B "de-DE"] then De else En.
Definition ex_base (t : ex_tag) : bytes := match t with En => B "en" | Zh => B "zh" | De => B "de" end.
Definition ex_region (t : ex_tag) : bytes := match t with En => B "US" | Zh => B "CN" | De => B "DE" end.
Notation ex_norm := (normalize ex_tag ex_make ex_base ex_region).
Definition ex_fmt (s : bytes) (_ : list unit) : bytes := s.
Definition ex_user : @user unit := {| u_lang := B "zh-Hans"; u_x := fun _ i _ => B "ni hao"; u_xn := fun _ i _ _ _ => i |}.
Definition ex_state : @state unit :=
  fold_left (do_op ex_fmt ex_norm) [OBind 0 (B "default") [] [EEntry false (B "a.po") (Some {| ff_name := Some (B "a.po"); ff_content := Some (B "msgid """"" ++ NL :: B "msgstr ""Language: de\n""") |})];
    OAdd 1 (TUser ex_user); OL 0 (B "zh-CN") (B "en_US")] (init (B "de_DE")).
Lemma ex_reach : reach_on ex_fmt ex_norm (of_tag ex_tag ex_base ex_region) ex_state.
Proof.
  unfold ex_state. cbn [fold_left]. repeat (apply RO_step; [|vm_compute; repeat split; lia|]); try exact I.
  - apply RO_init. exists De. reflexivity.
  - exists En. reflexivity.
Qed.
Example C75_case : (forall t, language_code (ex_base t)) /\ (forall t, region_code (ex_region t))
  /\ (forall t, ex_base (ex_make (normalize_tag ex_tag ex_base ex_region t)) = ex_base t /\ ex_region (ex_make (normalize_tag ex_tag ex_base ex_region t)) = ex_region t)
  /\ (exists t, normalize_tag ex_tag ex_base ex_region t = B "en_US")
  /\ reach_on ex_fmt ex_norm (of_tag ex_tag ex_base ex_region) ex_state
  /\ h_locale ex_state 1 = B "zh_CN" /\ h_locale ex_state 0 = B "de_DE" /\ used_locale ex_state 0 = B "de_DE" /\ h_x ex_fmt ex_state 1 [] (B "hi") [] = B "ni hao".
Proof.
  assert (Lw : forall t, language_code (ex_base t)).
  { intros []; (split; [left; reflexivity|]); repeat constructor; vm_compute; discriminate. }
  assert (Up : forall t, region_code (ex_region t)).
  { intros []; left; (split; [reflexivity|]); repeat constructor; vm_compute; discriminate. }
  split; [exact Lw|]. split; [exact Up|]. split; [intros []; split; reflexivity|]. split; [exists En; reflexivity|].
  split; [exact ex_reach|]. repeat split.
Qed.
(** [Get] compares the name as it is given: a catalog of zh-Hans is not found
    under that name, though a handle with that locale uses it *)
Theorem C75_get_refuted : exists (s : @state unit) t l h, reach_on ex_fmt ex_norm (of_tag ex_tag ex_base ex_region) s /\ t < length (s_trs s)
  /\ tr_get (the_tr s t) l = None /\ h_get s h (h_domain s h) = Some t
  /\ the_tor (set_locale ex_norm s h l []) h = TUser ex_user /\ u_lang ex_user = l.
Proof. exists ex_state, 1, (B "zh-Hans"), 0. split; [exact ex_reach|]. split; [vm_compute; lia|]. repeat split. Qed.
(** a cookie is returned as it is *)
Theorem C75_cookie_refuted : exists (s : @state unit) cookie accept l, reach_on ex_fmt ex_norm (of_tag ex_tag ex_base ex_region) s
  /\ get_user_lang ex_norm (fun _ _ => 0) s cookie accept [] (Some l) /\ ~ ll_CC l.
Proof.
  exists ex_state, (fun _ => Some []), [], []. split; [exact ex_reach|]. split; [reflexivity|].
  intros (b & r & E & [[L|L] _] & _); destruct b; discriminate.
Qed.
Print Assumptions C75_get_refuted. Print Assumptions C75_cookie_refuted.
