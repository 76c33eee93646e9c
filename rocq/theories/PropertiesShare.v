(** C106: zero values, copies and assignments of [Translation] by value. *)
From Coq Require Import Lia.
From Verif Require Import GoStr GoStrFacts GoMap GoMapFacts FileModel FileFacts PoModel MoModel TransModel TransSpec TransFacts TransFrameFacts TransViewFacts
  TransLoadFacts ZeroModel ZeroSpec ZeroFacts ShareModel ShareSpec ShareFacts ShareRunFacts PropertiesTrans.
Import ListNotations.

Section Props.
Context {A : Type}.
Variable fmt : bytes -> list A -> bytes.
Variable norm : bytes -> bytes.
Variable d0 : bytes.
Notation wrun := (wrun fmt norm d0).
Notation seen := (seen fmt norm d0).
Notation many := (many fmt norm d0).
Notation legal := (legal fmt norm d0).
Notation langs_of := (langs_of fmt norm d0).
Notation bare := (bare fmt norm d0).
Notation fails := (fails fmt norm d0).
Notation adds_lang := (adds_lang fmt norm d0).
Notation do_op := (do_op fmt norm).
Notation same_view := (same_view fmt norm).
Implicit Types (os : list (@wop A)) (x : @wop A) (t c h : nat) (l : bytes).

(** every translation has the languages made with exactly one translation, or is a zero value *)
Theorem C106_one : forall os t, legal os -> t < many os ->
  (exists c, langs_of os t c /\ (forall c', langs_of os t c' -> c' = c) /\ ~ bare os t) \/ (bare os t /\ forall c, ~ langs_of os t c).
Proof.
  intros os t P H. destruct (cell (wrun os) t) as [c|] eqn:E.
  - left. exists c. split; [apply langs_iff; assumption|]. split.
    + intros c' L. apply langs_iff in L; [congruence|exact P].
    + intros U. apply bare_iff in U as [_ U]; [congruence|exact P].
  - right. split; [apply bare_iff; auto|]. intros c L. apply langs_iff in L; [congruence|exact P].
Qed.
(** translations with the same languages have the same translators, whichever of them they were added through *)
Theorem C106_shared : forall os t t' c, legal os -> langs_of os t c -> langs_of os t' c ->
  forall l, tr_get (the_tr (seen os) t) l = tr_get (the_tr (seen os) t') l.
Proof.
  intros os t t' c P L L' l. apply langs_iff in L; [|exact P]. apply langs_iff in L'; [|exact P].
  unfold ShareSpec.seen. rewrite !flat_tr, L, L'. reflexivity.
Qed.
Theorem C106_bare : forall os t, legal os -> bare os t -> forall l, tr_get (the_tr (seen os) t) l = None.
Proof. intros os t P U l. apply bare_iff in U as [_ U]; [|exact P]. unfold ShareSpec.seen. rewrite flat_tr, U. reflexivity. Qed.

(** exactly which calls panic *)
Theorem C106_panics : forall os x, legal os -> wknown (wrun os) x -> (fst (wstep fmt norm (wrun os) x) = true <-> fails os x).
Proof.
  intros os x P K. destruct x as [o| | |]; try (split; [discriminate|intros []]). cbn [wknown] in K. rewrite step_is. cbn [fst].
  assert (Bn : forall t, target o = Some t -> cell (wrun os) t = None -> bare os t).
  { intros t T C. apply bare_iff; [exact P|]. split; [|exact C]. rewrite many_cells, <- flat_len. apply (known_target _ o); assumption. }
  assert (F : (forall t, target o = Some t -> cell (wrun os) t <> None) -> fst (call fmt norm (wrun os) o) = true <-> fails os (WCall o)).
  { intros N. rewrite call_own by exact N. cbn [fst]. split; [discriminate|]. intros C. exfalso. destruct o; try exact C; destruct C as [C _];
      apply bare_iff in C as [_ C]; auto; exact (N _ eq_refl C). }
  destruct (target o) as [t|] eqn:T; [|apply F; discriminate]. destruct (cell (wrun os) t) as [m|] eqn:C.
  - apply F. intros t' E. injection E as <-. congruence.
  - specialize (Bn t eq_refl C). unfold call. rewrite T, C. clear F. destruct o; try discriminate T; injection T as ->; cbn [nil_call ShareSpec.fails].
    + rewrite language_named. unfold nil_add, ShareSpec.seen. destruct (tor_lang _ x) as [l s1]. cbn [fst].
      destruct l; cbn; (split; [intros Q; split; [exact Bn|congruence]|intros [_ Q]; congruence]).
    + rewrite (proj2 (nil_po_is fmt norm (flat (wrun os)) content)). unfold as_po, has_lang. split.
      * intros (f & E & Hf). split; [exact Bn|]. exists f. rewrite E. auto.
      * intros (_ & f & E & Hf). destruct (read_po content) as [g| | |]; try discriminate E. injection E as ->. eauto.
    + rewrite (proj2 (nil_mo_is fmt norm (flat (wrun os)) content)). unfold as_mo, has_lang. split.
      * intros (f & E & Hf). split; [exact Bn|]. exists f. rewrite E. auto.
      * intros (_ & f & E & Hf). destruct (read_mo content) as [g| |]; try discriminate E. injection E as ->. eauto.
    + rewrite (proj2 (nil_fs_is fmt norm (flat (wrun os)) wm wp)). unfold has_lang. tauto.
Qed.
(** a call on a zero value, whether it panics or not, leaves every handle as it was, and the translations too *)
Theorem C106_on_bare : forall os (o : @op A) t, legal os -> known (seen os) o -> target o = Some t -> bare os t ->
  (forall h, h < length (s_ts (seen os)) -> same_view (seen os) h (seen (os ++ [WCall o])) h)
  /\ (forall t', t' < many os -> the_tr (seen (os ++ [WCall o])) t' = the_tr (seen os) t').
Proof.
  intros os o t P K T U. rewrite call_plain by eauto. unfold call. rewrite T. pose proof U as U'. apply bare_iff in U' as [_ C]; [|exact P]. rewrite C.
  fold (seen os). destruct (nil_untouched fmt norm (seen os) o ltac:(congruence)) as [U1 U2 U3 U4 U5]. split.
  - intros h H. apply TransViewFacts.same_view_of; [apply (winv_run fmt norm d0 os P)| |exact U4].
    apply (handle_eq _ _ _ _ (the_ts (seen os) h) (the_ts (seen os) h)); auto; unfold the_ts, the_map; rewrite ?U1, ?U2; auto.
  - intros t' H. apply U4, H.
Qed.

(** calls that add to no translation are as without copies *)
Theorem C106_calls : forall os (o : @op A), legal os -> known (seen os) o -> target o = None -> seen (os ++ [WCall o]) = do_op (seen os) o.
Proof. intros os o P K T. rewrite call_plain by auto. rewrite call_own by congruence. reflexivity. Qed.
(** programs without zero values, copies and assignments are those of TransModel *)
Theorem C106_ordinary : forall (os : list (@op A)), legal (map WCall os) ->
  seen (map WCall os) = fold_left do_op os (init d0) /\ forall o, known (seen (map WCall os)) o -> fst (wstep fmt norm (wrun (map WCall os)) (WCall o)) = false.
Proof.
  intros os P. assert (Q : seen (map WCall os) = fold_left do_op os (init d0) /\ forall t, t < many (map WCall os) -> cell (wrun (map WCall os)) t = Some t).
  { revert P. induction os as [|o os IH] using rev_ind; intros P.
    - split; [reflexivity|]. intros [|t] H; [reflexivity|]. cbn in H. lia.
    - rewrite map_app in *. cbn [map] in *. apply legal_snoc in P as [P K]. destruct (IH P) as [E C]. cbn [wknown] in K. fold (seen (map WCall os)) in K.
      rewrite fold_left_app. cbn [fold_left]. rewrite <- E. split.
      + destruct (target o) as [t|] eqn:T; [|apply C106_calls; assumption].
        assert (Ht : t < many (map WCall os)) by (apply (known_target _ o); assumption).
        assert (Lt : langs_of (map WCall os) t t) by (apply langs_iff; auto).
        destruct (call_shared fmt norm d0 _ o t t P K T Lt) as (E1 & E2 & E3 & E4). apply trs_ext; [| |exact E1].
        * change (many (map WCall os ++ [WCall o]) = length (s_trs (do_op (seen (map WCall os)) o))). rewrite E2.
          pose proof (same_tr fmt norm (seen (map WCall os)) o) as St. clear -K T Ht E2 E1 Lt P.
          pose proof (call_ok fmt norm (wrun (map WCall os)) o (winv_run fmt norm d0 _ P) K) as (L & _).
          rewrite (call_own fmt norm d0 (map WCall os) o) in L by (intros t' E'; apply langs_iff in Lt; [congruence|exact P]).
          cbn [snd] in L. rewrite <- many_cells in L. apply Nat.le_antisymm; [exact L|].
          pose proof (wrun_snoc fmt norm d0 (map WCall os) (WCall o)) as Ws. rewrite <- E2, many_cells, Ws, step_is. cbn [snd].
          rewrite (call_own fmt norm d0 (map WCall os) o) by (intros t' E'; apply langs_iff in Lt; [congruence|exact P]). cbn [snd].
          rewrite store_cells_len by (rewrite <- many_cells; exact L). apply le_n.
        * intros t' H'. change (t' < many (map WCall os ++ [WCall o])) in H'. rewrite E2 in H'. destruct (Nat.eq_dec t' t) as [->|N]; [apply E3, Lt|].
          rewrite E4; [|exact H'|].
          -- symmetry. apply (same_tr fmt norm _ o t' K H'). rewrite <- target_into, T. congruence.
          -- intros L. apply langs_iff in L; [|exact P]. rewrite (C t' H') in L. congruence.
      + intros t H. rewrite step_cell by assumption. destruct (Nat.ltb_spec t (many (map WCall os))); [apply C; assumption|].
        destruct (Nat.ltb_spec t (many (map WCall os ++ [WCall o]))); [reflexivity|lia]. }
  destruct Q as [E C]. split; [exact E|]. intros o K. rewrite step_is. rewrite call_own; [reflexivity|].
  intros t T. rewrite C; [discriminate|]. apply (known_target _ o); assumption.
Qed.

(** what is added through one translation is in all that have its languages, and handles answer from it *)
Theorem C106_added : forall os t y t' c, legal os -> known (seen os) (OAdd t y) -> langs_of os t c -> langs_of os t' c -> language_of (seen os) y <> [] ->
  let s' := seen (os ++ [WCall (OAdd t y)]) in
  tr_get (the_tr s' t') (norm (language_of (seen os) y)) = Some y
  /\ forall h, h_get s' h (h_domain s' h) = Some t' -> h_locale s' h = norm (language_of (seen os) y) ->
       answers_tor fmt s' h y /\ used_locale s' h = norm (language_of (seen os) y).
Proof.
  intros os t y t' c P K L L' N s'. destruct (call_shared fmt norm d0 os (OAdd t y) t c P K eq_refl L) as (_ & _ & E & _).
  assert (G : tr_get (the_tr s' t') (norm (language_of (seen os) y)) = Some y).
  { unfold s'. rewrite (E t' L'). cbn [TransModel.do_op]. rewrite language_named in *. apply (add_get norm fmt (seen os) t y); [apply K|exact N|reflexivity]. }
  split; [exact G|]. intros h Hg Hl. split.
  - assert (T : the_tor s' h = y) by (unfold the_tor, h_get_or_noop, tr_get_or_noop; rewrite Hg, Hl; unfold tr_get in G; rewrite G; reflexivity).
    replace y with (the_tor s' h) by exact T. apply tor_answers.
  - unfold used_locale. rewrite Hg, Hl, G. reflexivity.
Qed.
(** the same for LoadPo, LoadMo and LoadFS: the last catalog of the language that was read, else what was there *)
Theorem C106_loaded : forall os (o : @op A) t t' c l, legal os -> known (seen os) o -> loading o -> target o = Some t -> langs_of os t c -> langs_of os t' c ->
  let s' := seen (os ++ [WCall o]) in
  (exists f a, last_of (speaks norm l) (read_by o) f /\ tr_get (the_tr s' t') l = Some (TFile a) /\ same_file f (the_file s' a))
  \/ (forall g, In g (read_by o) -> ~ speaks norm l g) /\ tr_get (the_tr s' t') l = tr_get (the_tr (seen os) t') l.
Proof.
  intros os o t t' c l P K Ld T L L' s'. destruct (call_shared fmt norm d0 os o t c P K T L) as (E0 & _ & E & _).
  destruct (load_same fmt norm (seen os) o t l K Ld T) as [(f & a & Q1 & Q2 & Q3)|[Q1 Q2]].
  - left. exists f, a. split; [exact Q1|]. unfold s'. rewrite (E t' L'). split; [exact Q2|]. rewrite E0. exact Q3.
  - right. split; [exact Q1|]. unfold s'. rewrite (E t' L'), Q2. apply (C106_shared os t t' c P L L').
Qed.
(** nothing else changes what a translation has: not calls on translations with other languages, nor copies, nor assignments to others *)
Theorem C106_apart : forall os x t c l, legal os -> wknown (wrun os) x -> langs_of os t c -> ~ adds_lang os c l x -> (forall src, x <> WAssign t src) ->
  tr_get (the_tr (seen (os ++ [x])) t) l = tr_get (the_tr (seen os) t) l.
Proof.
  intros os x t c l P K L N Na. pose proof (winv_run fmt norm d0 os P) as I.
  assert (H : t < many os) by (apply langs_iff in L; [eapply cell_many, L|exact P]).
  destruct x as [o| |src|t' src].
  - cbn [wknown] in K. fold (seen os) in K. destruct (target o) as [t0|] eqn:T.
    + destruct (C106_one os t0 P) as [(c0 & L0 & Uq & _)|[U _]]; [apply (known_target _ o); assumption| |].
      * destruct (call_shared fmt norm d0 os o t0 c0 P K T L0) as (_ & _ & E3 & E4). destruct (Nat.eq_dec c0 c) as [->|Nc].
        -- rewrite (E3 t L). rewrite <- (C106_shared os t0 t c P L0 L l). apply (into_same fmt norm); auto. intros Pu. apply N.
           split; [|exists t0; exact Pu]. destruct o; try discriminate T; injection T as ->; exact L0.
        -- rewrite E4; [reflexivity|exact H|]. intros L1. apply Nc. apply langs_iff in L; [|exact P]. apply langs_iff in L1; [|exact P]. congruence.
      * rewrite (proj2 (C106_on_bare os o t0 P K T U) t H). reflexivity.
    + rewrite C106_calls by assumption. destruct (same_tr fmt norm (seen os) o t K H) as [E _]; [rewrite <- target_into, T; discriminate|]. rewrite E. reflexivity.
  - unfold ShareSpec.seen. rewrite wrun_snoc, step_zero, (more_old fmt norm d0); [reflexivity|exact I|]. rewrite <- many_cells. exact H.
  - unfold ShareSpec.seen. rewrite wrun_snoc, step_copy, (more_old fmt norm d0); [reflexivity|exact I|]. rewrite <- many_cells. exact H.
  - unfold ShareSpec.seen. rewrite wrun_snoc, step_assign, assign_tr by apply K. destruct (Nat.eqb_spec t t') as [->|Nt]; [destruct (Na src eq_refl)|reflexivity].
Qed.
(** making a zero value or a copy is seen by no handle, and the copy has the languages of the original *)
Theorem C106_copy : forall os x, legal os -> wknown (wrun os) x -> x = WZero \/ (exists src, x = WCopy src) ->
  (forall h, h < length (s_ts (seen os)) -> same_view (seen os) h (seen (os ++ [x])) h)
  /\ many (os ++ [x]) = S (many os)
  /\ (forall src l, x = WCopy src -> tr_get (the_tr (seen (os ++ [x])) (many os)) l = tr_get (the_tr (seen os) src) l).
Proof.
  intros os x P K Q. pose proof (winv_run fmt norm d0 os P) as I.
  assert (E : exists c : option nat, seen (os ++ [x]) = flat (more (wrun os) c)).
  { unfold ShareSpec.seen. rewrite wrun_snoc. destruct Q as [->|[src ->]]; eexists; [rewrite step_zero|rewrite step_copy]; reflexivity. }
  destruct E as [c E]. split; [|split].
  - intros h H. apply TransViewFacts.same_view_of; [apply I| |].
    + rewrite E. apply (handle_eq _ _ _ _ (the_ts (seen os) h) (the_ts (seen os) h)); auto.
    + rewrite E. unfold ShareSpec.seen. split.
      * intros t Ht. rewrite flat_len in Ht. apply (more_old fmt norm d0); assumption.
      * rewrite !flat_len. unfold more. cbn [w_cells]. rewrite app_length. lia.
      * intros a _. apply same_file_refl.
      * apply le_n.
  - pose proof (step_many fmt norm d0 os x P K) as M. destruct Q as [->|[src ->]]; exact M.
  - intros src l ->. unfold ShareSpec.seen. rewrite wrun_snoc, step_copy, many_cells, (more_new fmt norm d0) by exact I. reflexivity.
Qed.
(** after [*t = *src], handles with [t] as their translation answer from the languages of [src]; handles without it are as they were *)
Theorem C106_assign : forall os t src, legal os -> t < many os -> src < many os ->
  let s' := seen (os ++ [WAssign t src]) in
  (forall l, tr_get (the_tr s' t) l = tr_get (the_tr (seen os) src) l)
  /\ (forall h, h_get (seen os) h (h_domain (seen os) h) = Some t ->
        (h_locale s' h = h_locale (seen os) h /\ h_domain s' h = h_domain (seen os) h)
        /\ answers_tor fmt s' h match tr_get (the_tr (seen os) src) (h_locale (seen os) h) with Some y => y | None => TNoop end)
  /\ (forall h, h < length (s_ts (seen os)) -> t <> tr_noop -> (forall d, h_get (seen os) h d <> Some t) -> same_view (seen os) h s' h).
Proof.
  intros os t src P H1 H2 s'. pose proof (winv_run fmt norm d0 os P) as I.
  assert (E : s' = flat (assign (wrun os) t src)) by (unfold s', ShareSpec.seen; rewrite wrun_snoc; reflexivity).
  assert (T : forall t', the_tr s' t' = the_tr (seen os) (if t' =? t then src else t')) by (intros t'; rewrite E; apply assign_tr; rewrite <- many_cells; exact H1).
  split; [|split].
  - intros l. rewrite T, Nat.eqb_refl. reflexivity.
  - intros h Hg. assert (Hl : h_locale s' h = h_locale (seen os) h) by (rewrite E; reflexivity). assert (Hd : h_domain s' h = h_domain (seen os) h) by (rewrite E; reflexivity).
    split; [auto|].
    assert (G : h_get s' h (h_domain s' h) = Some t) by (rewrite Hd; rewrite E; exact Hg).
    match goal with |- answers_tor _ _ _ ?y => replace y with (the_tor s' h) end; [apply tor_answers|].
    unfold the_tor, h_get_or_noop. rewrite G. unfold tr_get_or_noop. rewrite T, Nat.eqb_refl, Hl. unfold tr_get. destruct (mget _ _); reflexivity.
  - intros h H Nn Nd. assert (E' : s' = put_trs (seen os) (s_trs s')) by (rewrite E; reflexivity). rewrite E'. apply view_reached; [exact H|].
    intros d. rewrite <- E', T. destruct (Nat.eqb_spec (h_get_or_noop (seen os) h d) t) as [Q|_]; [|reflexivity].
    exfalso. unfold h_get_or_noop in Q. specialize (Nd d). destruct (h_get (seen os) h d); congruence.
Qed.
End Props.

(** ** Examples *)
Fixpoint legalb_ (w : @wstate unit) (os : list (@wop unit)) : Prop :=
  match os with [] => True | o :: r => wknown w o /\ legalb_ (snd (wstep ex_fmt ex_norm w o)) r end.
Lemma legalb_ok os : legalb_ (winit (B "zh")) os -> legal ex_fmt ex_norm (B "zh") os.
Proof.
  unfold legal, ShareModel.wrun. generalize (winit (A := unit) (B "zh")) as w. induction os as [|x os IH]; intros w H os1 o os2 E; [destruct os1; discriminate|].
  destruct H as [K H]. destruct os1 as [|y os1]; cbn [app] in E; injection E as <- E; [subst; exact K|]. cbn [fold_left]. exact (IH _ H os1 o os2 E).
Qed.
Notation ex_langs := (langs_of ex_fmt ex_norm (B "zh")).
Notation ex_seen := (seen ex_fmt ex_norm (B "zh")).
(** translation 1 is bound to the current domain, 2 is a copy of it, 3 a zero value, 4 made new *)
Definition ex_share : list (@wop unit) := [WCall (OBind 0 (B "default") [] ex_walk); WCopy 1; WZero; WCall (ONewTr (B "x"))].
Lemma ex_share_legal : legal ex_fmt ex_norm (B "zh") ex_share.
Proof. apply legalb_ok. vm_compute. repeat split; lia. Qed.
Definition ex_more : @op unit := OLoadPo 2 (ex_po "zh" "nin hao").
Example C106_case : legal ex_fmt ex_norm (B "zh") ex_share /\ many ex_fmt ex_norm (B "zh") ex_share = 5
  /\ ex_langs ex_share 1 1 /\ ex_langs ex_share 2 1 /\ bare ex_fmt ex_norm (B "zh") ex_share 3 /\ ex_langs ex_share 4 4
  /\ fails ex_fmt ex_norm (B "zh") ex_share (WCall (OLoadPo 3 (ex_po "zh" "ni hao")))
  /\ ~ fails ex_fmt ex_norm (B "zh") (ex_share ++ [WAssign 3 4]) (WCall (OLoadPo 3 (ex_po "zh" "ni hao")))
  /\ known (ex_seen ex_share) ex_more /\ loading ex_more
  /\ h_x ex_fmt (ex_seen ex_share) 0 [] (B "hi") [] = B "ni hao"
  /\ h_x ex_fmt (ex_seen (ex_share ++ [WCall ex_more])) 0 [] (B "hi") [] = B "nin hao"
  /\ h_x ex_fmt (ex_seen (ex_share ++ [WCall (OLoadPo 4 (ex_po "zh" "nin hao"))])) 0 [] (B "hi") [] = B "ni hao"
  /\ h_x ex_fmt (ex_seen (ex_share ++ [WCall (OLoadPo 4 (ex_po "zh" "nin hao")); WAssign 1 4])) 0 [] (B "hi") [] = B "nin hao"
  /\ h_x ex_fmt (ex_seen (ex_share ++ [WAssign 1 3])) 0 [] (B "hi") [] = B "hi".
Proof.
  pose proof ex_share_legal as P. split; [exact P|]. split; [vm_compute; reflexivity|].
  split; [apply langs_iff; [exact P|vm_compute; reflexivity]|]. split; [apply langs_iff; [exact P|vm_compute; reflexivity]|].
  assert (U : bare ex_fmt ex_norm (B "zh") ex_share 3) by (apply bare_iff; [exact P|vm_compute; split; [lia|reflexivity]]). split; [exact U|].
  split; [apply langs_iff; [exact P|vm_compute; reflexivity]|].
  split. { apply C106_panics; [exact P|vm_compute; lia|vm_compute; reflexivity]. }
  split. { intros [C _]. apply bare_iff in C as [_ C]; [vm_compute in C; discriminate C|]. apply legal_snoc. split; [exact P|vm_compute; split; lia]. }
  split; [vm_compute; lia|]. split; [exact I|]. repeat split; vm_compute; reflexivity.
Qed.
(** a copy is not independent: what is loaded through it is what the original answers with *)
Theorem C106_copy_refuted : exists os t o h, legal ex_fmt ex_norm (B "zh") (os ++ [WCopy t; WCall o])
  /\ target o = Some (many ex_fmt ex_norm (B "zh") os) /\ h < length (s_ts (ex_seen os))
  /\ ~ same_view ex_fmt ex_norm (ex_seen os) h (ex_seen (os ++ [WCopy t; WCall o])) h.
Proof.
  exists [WCall (OBind 0 (B "default") [] ex_walk)], 1, (OLoadPo 2 (ex_po "zh" "nin hao")), 0.
  split; [apply legalb_ok; vm_compute; repeat split; lia|]. split; [vm_compute; reflexivity|]. split; [vm_compute; lia|].
  intros [(_ & _ & _ & _ & _ & _ & C & _) _]. specialize (C [] (B "hi") []). vm_compute in C. discriminate C.
Qed.
Print Assumptions C106_one.
Print Assumptions C106_shared.
Print Assumptions C106_bare.
Print Assumptions C106_panics.
Print Assumptions C106_on_bare.
Print Assumptions C106_calls.
Print Assumptions C106_ordinary.
Print Assumptions C106_added.
Print Assumptions C106_loaded.
Print Assumptions C106_apart.
Print Assumptions C106_copy.
Print Assumptions C106_assign.
Print Assumptions C106_copy_refuted.
