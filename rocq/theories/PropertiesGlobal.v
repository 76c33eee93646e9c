(** C66-C69: settings of handles, the package-level functions, the short
    forms N1 and XN1, the list of domains. *)
From Coq Require Import Permutation Arith Lia.
From Verif Require Import GoStr GoStrFacts GoMap GoMapFacts FileModel PoModel MoModel TransModel TransSpec TransFacts TransViewFacts TransLoadFacts GlobalModel PropertiesTrans.

Section Global.
Context {A : Type}.
Variable fmt : bytes -> list A -> bytes.
Variable norm : bytes -> bytes.
Implicit Types s : @state A.

(** *** Specification: the settings of a handle *)
Record settings := { v_locale : bytes; v_domain : bytes; v_source : bytes; v_get : bytes -> option nat }.
Definition shows s h (v : settings) : Prop :=
  h_locale s h = v_locale v /\ h_domain s h = v_domain v /\ h_source s h = v_source v
  /\ forall d, h_get s h d = v_get v d.
Definition view s h : settings :=
  {| v_locale := h_locale s h; v_domain := h_domain s h; v_source := h_source s h; v_get := h_get s h |}.
(** every other handle is as before *)
Definition others s s' h : Prop := forall h', h' < length (s_ts s) -> h' <> h -> shows s' h' (view s h').
(** existing handles are as before *)
Definition all_as_before s s' : Prop := forall h', h' < length (s_ts s) -> shows s' h' (view s h').

Lemma shows_frame s s' h' : frame s s' h' -> shows s' h' (view s h').
Proof. intros [[] _]. repeat split; cbn [v_locale v_domain v_source v_get view]; unfold h_get; congruence. Qed.
Lemma others_set s h r : others s (set_ts s h r) h.
Proof. intros h' H N. apply shows_frame, set_ts_frame; assumption. Qed.
Lemma fresh_get s r g h : t_map r = length (s_maps s) -> h = length (s_ts s) ->
  the_ts (fresh s r g) h = r /\ h_domains (fresh s r g) h = g.
Proof.
  intros T ->. unfold h_domains, the_ts, the_map, fresh. cbn [s_ts s_maps]. rewrite nth_new, T, nth_new. split; reflexivity.
Qed.

(** ** C66: a setter sets what it names and nothing else *)
Theorem C66_set_domain : forall s h d, h < length (s_ts s) ->
  let s' := set_domain s h d in
  shows s' h {| v_locale := h_locale s h; v_domain := d; v_source := h_source s h; v_get := h_get s h |} /\ others s s' h.
Proof.
  intros s h d H s'. split; [|apply others_set]. unfold s', set_domain, shows, h_locale, h_domain, h_source, h_get, h_domains.
  rewrite set_ts_at by exact H. repeat split.
Qed.
(** [d] is the language of the system *)
Theorem C66_set_locale : forall s h l d, h < length (s_ts s) ->
  let s' := set_locale norm s h l d in
  shows s' h {| v_locale := match l with [] => d | _ => norm l end; v_domain := h_domain s h;
                v_source := h_source s h; v_get := h_get s h |} /\ others s s' h.
Proof.
  intros s h l d H s'. split; [|apply others_set]. unfold s', set_locale, shows, h_locale, h_domain, h_source, h_get, h_domains.
  rewrite set_ts_at by exact H. repeat split.
Qed.
Theorem C66_set_source : forall s h l, h < length (s_ts s) ->
  let s' := set_source norm s h l in
  shows s' h {| v_locale := h_locale s h; v_domain := h_domain s h; v_source := norm l; v_get := h_get s h |} /\ others s s' h.
Proof.
  intros s h l H s'. split; [|apply others_set]. unfold s', set_source, shows, h_locale, h_domain, h_source, h_get, h_domains.
  rewrite set_ts_at by exact H. repeat split.
Qed.
Theorem C66_new : forall s d, reach fmt norm s ->
  let h := fst (new_translations s d) in let s' := snd (new_translations s d) in
  length (s_ts s) <= h < length (s_ts s')
  /\ shows s' h {| v_locale := d; v_domain := B "default"; v_source := B "en_US"; v_get := fun _ => None |}
  /\ all_as_before s s'.
Proof.
  intros s d R. cbn zeta. pose proof (reach_wf norm fmt s R) as W.
  set (r := {| t_locale := d; t_domain := default_domain; t_map := length (s_maps s); t_source := default_source |}).
  change (new_translations s d) with (length (s_ts s), fresh s r []). cbn [fst snd].
  destruct (fresh_get s r [] (length (s_ts s)) eq_refl eq_refl) as [T D]. split; [|split].
  - unfold fresh. cbn [s_ts]. rewrite app_length. cbn [length]. lia.
  - unfold shows, h_get, h_locale, h_domain, h_source. rewrite T, D. repeat split.
  - intros h' H. apply shows_frame. split; [apply fresh_old; assumption|apply fresh_keeps].
Qed.
(** the handles that D, L and Global return *)
Theorem C66_copies : forall s h d l sys, reach fmt norm s -> h < length (s_ts s) ->
  (let h' := fst (h_D s h d) in let s' := snd (h_D s h d) in
   length (s_ts s) <= h' < length (s_ts s') /\ all_as_before s s'
   /\ shows s' h' {| v_locale := h_locale s h; v_domain := d; v_source := h_source s h; v_get := h_get s h |})
  /\ (let h' := fst (h_L norm s h l sys) in let s' := snd (h_L norm s h l sys) in
   length (s_ts s) <= h' < length (s_ts s') /\ all_as_before s s'
   /\ shows s' h' {| v_locale := match l with [] => sys | _ => norm l end; v_domain := h_domain s h;
                     v_source := h_source s h; v_get := h_get s h |})
  /\ (let h' := fst (g_clone s) in let s' := snd (g_clone s) in
   length (s_ts s) <= h' < length (s_ts s') /\ all_as_before s s' /\ shows s' h' (view s (s_global s))).
Proof.
  intros s h d l sys R H. pose proof (reach_wf norm fmt s R) as W.
  assert (C : forall h, h < length (s_ts s) -> shows (snd (clone s h)) (length (s_ts s)) (view s h)).
  { intros h0 H0. destruct (clone_new s h0 W H0). rewrite clone_fst in *. repeat split; cbn [v_locale v_domain v_source v_get view]; unfold h_get; congruence. }
  assert (L : forall h0, length (s_ts s) < length (s_ts (snd (clone s h0)))) by (intros; rewrite clone_len; lia).
  split; [|split]; cbn zeta.
  - rewrite D_fst, (D_len fmt norm). split; [lia|]. split; [intros h' H'; apply shows_frame, (D_frame fmt norm); assumption|].
    destruct (C h H) as (C1 & C2 & C3 & C4). cbn [v_locale v_domain v_source v_get view] in *.
    destruct (C66_set_domain (snd (clone s h)) (length (s_ts s)) d (L h)) as [(S1 & S2 & S3 & S4) _].
    change (snd (h_D s h d)) with (set_domain (snd (clone s h)) (length (s_ts s)) d).
    cbn [v_locale v_domain v_source v_get] in *. repeat split; cbn [v_locale v_domain v_source v_get]; congruence.
  - rewrite L_fst, (L_len fmt norm). split; [lia|]. split; [intros h' H'; apply shows_frame, (L_frame fmt norm); assumption|].
    destruct (C h H) as (C1 & C2 & C3 & C4). cbn [v_locale v_domain v_source v_get view] in *.
    destruct (C66_set_locale (snd (clone s h)) (length (s_ts s)) l sys (L h)) as [(S1 & S2 & S3 & S4) _].
    change (snd (h_L norm s h l sys)) with (set_locale norm (snd (clone s h)) (length (s_ts s)) l sys).
    cbn [v_locale v_domain v_source v_get] in *. repeat split; cbn [v_locale v_domain v_source v_get]; congruence.
  - unfold g_clone. rewrite clone_fst, clone_len. split; [lia|]. pose proof (w_global s W).
    split; [intros h' H'; apply shows_frame, clone_frame; assumption|apply C; assumption].
Qed.

(** what loading does not touch *)
Definition shape s := (s_ts s, s_maps s, s_global s).
Lemma shape_lang : forall s x, shape (snd (tor_lang s x)) = shape s.
Proof.
  intros s [|a|u]; reflexivity.
Qed.
Lemma shape_add : forall s t x, shape (snd (add_or_replace norm s t x)) = shape s.
Proof.
  intros s t x. unfold add_or_replace. pose proof (shape_lang s x) as E. destruct (tor_lang s x) as [l s1]. cbn [snd] in E.
    destruct l; exact E.
Qed.
Lemma shape_load_po : forall s t c, shape (snd (load_po norm s t c)) = shape s.
Proof.
  intros s t c. unfold load_po. destruct (read_po c); try reflexivity. cbn [new_f]. cbn [snd]. rewrite shape_add. reflexivity.
Qed.
Lemma shape_load_mo : forall s t c, shape (snd (load_mo norm s t c)) = shape s.
Proof.
  intros s t c. unfold load_mo. destruct (read_mo c); try reflexivity. cbn [new_f]. cbn [snd]. rewrite shape_add. reflexivity.
Qed.
Lemma shape_load_file : forall s t f, shape (snd (load_file norm s t f)) = shape s.
Proof.
  intros s t f. unfold load_file. destruct (ff_name f); [|reflexivity]. destruct (ff_content f); [|reflexivity].
    destruct (has_suffix _ _); [apply shape_load_po|]. destruct (has_suffix _ _); [apply shape_load_mo|reflexivity].
Qed.
Lemma shape_walk : forall ext w s t b, shape (snd (walk norm ext s t b w)) = shape s.
Proof.
  induction w as [|[|dir n f] w IH]; intros s t b; try reflexivity. cbn [walk]. destruct (_ && _); [|apply IH].
    destruct f as [f|]; [|apply IH]. pose proof (shape_load_file s t f) as E. destruct (load_file norm s t f). rewrite IH. exact E.
Qed.
Lemma shape_load_fs : forall s t wm wp, shape (snd (load_fs norm s t wm wp)) = shape s.
Proof.
  intros s t wm wp. unfold load_fs. pose proof (shape_walk ext_mo wm s t false) as E. destruct (walk norm ext_mo s t false wm).
    rewrite shape_walk. exact E.
Qed.

(** ** C67: the package-level functions are the methods of the global handle *)
(** which is the one given to SetGlobal last *)
Theorem C67_which : forall s o,
  s_global (do_op fmt norm s o) = match o with OSetGlobal h => h | _ => s_global s end.
Proof.
  intros s [ ]; try reflexivity; cbn [do_op].
  - unfold with_context. cbn [g_clone]. destruct (get_ctx_locale c); destruct (get_ctx_domain c); reflexivity.
  - unfold bind_fs. set (s1 := snd (new_translation s domain)). pose proof (f_equal snd (shape_load_fs s1 (length (s_trs s)) wm wp)) as E.
    change (new_translation s domain) with (length (s_trs s), s1). cbv iota beta zeta.
    destruct (load_fs norm s1 (length (s_trs s)) wm wp) as [[|] s2]; exact E.
  - unfold remove_domain. destruct domain; [reflexivity|]. destruct (negb _); [reflexivity|]. cbn [snd].
    destruct (beq _ _); reflexivity.
  - unfold h_xn64, tor_xn. destruct (the_tor s h) as [|a|u]; try reflexivity. destruct (f_xn64 _ _ _ _ _ _ _). reflexivity.
  - exact (f_equal snd (shape_add s t x)).
  - exact (f_equal snd (shape_load_po s t content)).
  - exact (f_equal snd (shape_load_mo s t content)).
  - exact (f_equal snd (shape_load_fs s t wm wp)).
Qed.
Theorem C67_same : forall s c i i2 n args l d dom wm wp out,
  let g := s_global s in
  g_T fmt s i args = h_t fmt s g i args /\ g_X fmt s c i args = h_x fmt s g c i args
  /\ g_N fmt s i i2 n args = h_n fmt s g i i2 n args /\ g_N64 fmt s i i2 n args = h_n64 fmt s g i i2 n args
  /\ g_N1 fmt s i n args = h_n1 fmt s g i n args /\ g_N1_64 fmt s i n args = h_n1_64 fmt s g i n args
  /\ g_XN fmt s c i i2 n args = h_xn fmt s g c i i2 n args /\ g_XN64 fmt s c i i2 n args = h_xn64 fmt s g c i i2 n args
  /\ g_XN1 fmt s c i n args = h_xn1 fmt s g c i n args /\ g_XN1_64 fmt s c i n args = h_xn1_64 fmt s g c i n args
  /\ g_D s dom = h_D s g dom /\ g_L norm s l d = h_L norm s g l d
  /\ g_bind norm s dom wm wp = bind_fs norm s g dom wm wp /\ g_load norm s wm wp = bind_fs norm s g (h_domain s g) wm wp
  /\ g_remove s dom = remove_domain s g dom /\ g_clear s = clear_domains s g
  /\ g_set_locale norm s l d = set_locale norm s g l d /\ g_set_source norm s l = set_source norm s g l
  /\ g_set_domain s dom = set_domain s g dom /\ g_locale s = h_locale s g /\ g_source s = h_source s g
  /\ g_domain s = h_domain s g /\ g_used s = used_locale s g /\ g_has s dom = has_domain s g dom
  /\ (g_locales norm s out <-> locales norm s g out) /\ (g_domains s out <-> domains s g out).
Proof. intros. repeat split; intros H; exact H. Qed.

(** a text that was marked is translated as the text itself *)
Theorem C67_marked : forall s c i i2 n args,
  g_T fmt s (mark_T i) args = g_T fmt s i args
  /\ (let (a, b) := mark_N i i2 in g_N64 fmt s a b n args) = g_N64 fmt s i i2 n args
  /\ (let (a, b) := mark_X c i in g_X fmt s a b args) = g_X fmt s c i args
  /\ (let '(a, b, d) := mark_XN c i i2 in g_XN64 fmt s a b d n args) = g_XN64 fmt s c i i2 n args.
Proof. repeat split. Qed.

(** ** C68: N1 and XN1 are N and XN with the text for both numbers *)
Definition no_user s h : Prop := forall u, the_tor s h <> TUser u.
Theorem C68_same_text : forall s h c i n args, no_user s h ->
  h_n1 fmt s h i n args = h_n fmt s h i i n args
  /\ h_n1_64 fmt s h i n args = h_n64 fmt s h i i n args
  /\ h_xn1 fmt s h c i n args = h_xn fmt s h c i i n args
  /\ h_xn1_64 fmt s h c i n args = h_xn64 fmt s h c i i n args.
Proof.
  assert (D : forall i n args, default_plural fmt i i n args = default_plural fmt i [] n args).
  { intros i n args. unfold default_plural. destruct i as [|x i]; [reflexivity|]. destruct (n =? 1)%Z; reflexivity. }
  assert (G : forall s h c i n args, no_user s h -> h_xn64 fmt s h c i [] n args = h_xn64 fmt s h c i i n args).
  { intros s h c i n args U. unfold h_xn64. destruct (the_tor s h) as [|a|u] eqn:T; [| |edestruct U; exact T].
    - cbn [tor_xn]. rewrite D. reflexivity.
    - cbn [tor_xn]. unfold f_xn64. rewrite D. reflexivity. }
  intros. repeat split; apply G; assumption.
Qed.
(** the text without a context is the text in the empty context *)
Theorem C68_no_context : forall s h i i2 n args,
  h_t fmt s h i args = h_x fmt s h [] i args /\ h_n fmt s h i i2 n args = h_xn fmt s h [] i i2 n args
  /\ h_n64 fmt s h i i2 n args = h_xn64 fmt s h [] i i2 n args /\ h_n1 fmt s h i n args = h_xn1 fmt s h [] i n args
  /\ h_n1_64 fmt s h i n args = h_xn1_64 fmt s h [] i n args.
Proof. repeat split. Qed.

(** ** C69: Domains lists every bound domain once, HasDomain and Get agree *)
Theorem C69_domains : forall s h out, reach fmt norm s -> domains s h out ->
  NoDup out /\ (forall d, In d out <-> has_domain s h d = true) /\ (forall d, has_domain s h d = true <-> exists t, h_get s h d = Some t).
Proof.
  intros s h out R P. pose proof (reach_wf norm fmt s R) as W. unfold domains in P. split; [|split].
  - eapply Permutation_NoDup; [apply Permutation_sym, P|]. apply (w_nodup s W).
  - intros d. unfold has_domain. rewrite existsb_beq. split; intros I; [eapply Permutation_in; [exact P|exact I]|eapply Permutation_in; [apply Permutation_sym, P|exact I]].
  - intros d. rewrite has_domain_get. split; [|intros (t & ->); discriminate].
    destruct (h_get s h d) as [t|]; [eauto|congruence].
Qed.
(** what changes it: a binding that loads something, a removal, a clearing of this handle *)
Definition bound_after (o : @op A) (before : bytes -> bool) (d : bytes) : bool :=
  match o with
  | OBind _ d' wm wp => if existsb (fun x => match gives x with Some _ => true | None => false end)
                             (hits (B ".mo") wm ++ hits (B ".po") wp) then beq d d' || before d else before d
  | ORemove _ d' => match d' with [] => before d | _ => negb (beq d d') && before d end
  | OClear _ => false
  | _ => before d
  end.
Theorem C69_changes : forall s o h, reach fmt norm s -> known s o -> h < length (s_ts s) ->
  forall d, has_domain (do_op fmt norm s o) h d
  = match on_handle o with
    | Some h' => if Nat.eqb h h' then bound_after o (has_domain s h) d else has_domain s h d
    | None => has_domain s h d
    end.
Proof.
  intros s o h R K H d. pose proof (reach_wf norm fmt s R) as W.
  assert (Fr : forall s', frame s s' h -> has_domain s' h d = has_domain s h d).
  { intros s' [[] _]. unfold has_domain. congruence. }
  assert (Sh : forall s', shape s' = shape s -> has_domain s' h d = has_domain s h d).
  { intros s' E. assert (E1 : s_ts s' = s_ts s) by (injection E; auto). assert (E2 : s_maps s' = s_maps s) by (injection E; auto).
    unfold has_domain, h_domains, the_map, the_ts. rewrite E1, E2. reflexivity. }
  assert (El : elsewhere h s o -> has_domain (do_op fmt norm s o) h d = has_domain s h d).
  { intros E. apply Fr, elsewhere_frame; assumption. }
  destruct o; cbn [on_handle known] in *; try (apply El; split; [intros Q; exact Q|discriminate]).
  1-6: destruct (Nat.eqb h h0) eqn:Q; [apply Nat.eqb_eq in Q; subst h0|apply El; split; [intros []|];
         cbn [on_handle]; apply Nat.eqb_neq in Q; congruence].
  - cbn [bound_after do_op]. apply (has_domain_eq norm). destruct (C66_set_domain s h domain H) as [(_ & _ & _ & E) _]. exact (E d).
  - cbn [bound_after do_op]. apply (has_domain_eq norm). destruct (C66_set_locale s h lang d0 H) as [(_ & _ & _ & E) _]. exact (E d).
  - cbn [bound_after do_op]. apply (has_domain_eq norm). destruct (C66_set_source s h lang H) as [(_ & _ & _ & E) _]. exact (E d).
  - cbn [bound_after do_op]. change (fun x => match gives x with Some _ => true | None => false end) with okb.
    destruct (existsb okb _) eqn:E.
    + pose proof E as E'. apply some_loaded_iff in E'. pose proof (bind_domains norm s h domain wm wp W H E') as D.
      assert (G : forall x, h_get (bind_fs norm s h domain wm wp) h x = if beq x domain then Some (length (s_trs s)) else h_get s h x).
      { intros x. unfold h_get. rewrite D. destruct (beq x domain) eqn:Q.
        - apply beq_eq in Q. subst x. apply mget_put_same.
        - apply mget_put_other. intros ->. rewrite beq_refl in Q. discriminate. }
      destruct (beq d domain) eqn:Q; cbn [orb].
      * apply has_domain_get. rewrite G, Q. discriminate.
      * apply (has_domain_eq norm). rewrite G, Q. reflexivity.
    + apply (has_domain_eq norm). unfold h_get. unfold h_domains. rewrite bind_fs_spec. cbn zeta. rewrite E. reflexivity.
  - cbn [bound_after do_op]. destruct domain as [|c0 d0] eqn:D0; [reflexivity|]. rewrite <- D0 in *.
    destruct (fst (remove_domain s h domain)) eqn:E.
    + destruct (remove_spec s h domain W H E) as (G1 & G2 & _). destruct (beq d domain) eqn:Q; cbn [negb andb].
      * apply beq_eq in Q. subst d. destruct (has_domain (snd (remove_domain s h domain)) h domain) eqn:P; [|reflexivity]. apply has_domain_get in P. contradiction.
      * apply (has_domain_eq norm), G2. intros ->. rewrite beq_refl in Q. discriminate.
    + rewrite remove_false by exact E. destruct (beq d domain) eqn:Q; [|reflexivity]. apply beq_eq in Q. subst d. cbn [negb andb].
      destruct (has_domain s h domain) eqn:P; [|reflexivity].
      assert (fst (remove_domain s h domain) = true) by (apply (remove_true norm); split; [rewrite D0; discriminate|exact P]). congruence.
  - cbn [bound_after do_op]. destruct (clear_spec s h H) as (G & _). destruct (has_domain (clear_domains s h) h d) eqn:P; [|reflexivity].
    apply has_domain_get in P. rewrite G in P. contradiction.
  - apply Sh, shape_add.
  - apply Sh, shape_load_po.
  - apply Sh, shape_load_mo.
  - apply Sh, shape_load_fs.
  - apply Sh. reflexivity.
Qed.
End Global.

Print Assumptions C66_set_domain.
Print Assumptions C66_set_locale.
Print Assumptions C66_set_source.
Print Assumptions C66_new.
Print Assumptions C66_copies.
Print Assumptions C67_which.
Print Assumptions C67_same.
Print Assumptions C67_marked.
Print Assumptions C68_same_text.
Print Assumptions C68_no_context.
Print Assumptions C69_domains.
Print Assumptions C69_changes.
(** a second handle with its own settings becomes the global one *)
Definition ex_ops2 : list (@op unit) :=
  [ONew (B "fr"); OBind 1 (B "default") [] ex_walk; OBind 1 (B "shop") [] ex_walk2; OSetDomain 1 (B "shop"); OSetLocale 1 (B "zh") [];
   OSetSource 1 (B "de"); OSetGlobal 1; OL 0 (B "en") []].
Definition ex2 : @state unit := fold_left ex_do ex_ops2 ex1.
Example ex2_reach : reach ex_fmt ex_norm ex2.
Proof.
  unfold ex2, ex_ops2. cbn [fold_left].
  do 8 (apply R_step; [|first [exact I|vm_compute; lia]]). apply (reach_clean_reach ex_fmt ex_norm), ex1_reach.
Qed.
Example C66_case : length (s_ts ex2) = 3 /\ h_source ex2 1 = B "de" /\ h_domain ex2 1 = B "shop" /\ h_domain ex2 0 = B "default"
  /\ h_locale ex2 2 = B "en".
Proof. vm_compute. auto. Qed.
Example C67_case : s_global ex2 = 1 /\ g_T ex_fmt ex2 (B "hi") [] = B "nin hao" /\ h_t ex_fmt ex2 0 (B "hi") [] = B "ni hao".
Proof. vm_compute. auto. Qed.
Example C68_case : no_user ex2 1 /\ fst (h_n1 ex_fmt ex2 1 (B "hi") 2 []) = XStr (B "nin hao").
Proof. split; [intros u; vm_compute; discriminate|vm_compute; reflexivity]. Qed.
Example C69_case : domains ex2 1 [B "shop"; B "default"] /\ has_domain ex2 1 (B "shop") = true /\ has_domain ex2 0 (B "shop") = false.
Proof. split; [|vm_compute; auto]. unfold domains. vm_compute. apply perm_swap || apply Permutation_refl. Qed.
