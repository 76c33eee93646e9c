(** Properties of calls on nil pointers. *)
From Coq Require Import Lia Arith.
From Verif Require Import GoStr GoMap FileModel PoModel MoModel TransModel TransSpec TransFacts TransFrameFacts TransViewFacts
  HandleConcModel HandleConcSpec PropertiesTrans GlobalModel PropertiesGlobal NilModel NilSpec NilFacts NilLoadFacts.
Local Open Scope nat_scope.

(** ** C98: nil handles and nil translations *)
Lemma quiet_view A (fmt : bytes -> list A -> bytes) norm s s1 : wf s -> quiet s s1 -> forall h, h < length (s_ts s) -> same_view fmt norm s h s1 h.
Proof. intros W (_ & _ & _ & F) h H. destruct (F h H); apply same_view_of; assumption. Qed.
(** a call panics exactly if the handle it needs is nil and it is not one of
    the few that return before they come to it *)
Theorem C98_exactly : forall A (fmt : bytes -> list A -> bytes) norm z s own q, reach fmt norm s -> z < length (s_ts s) ->
  (snd (exec norm z s (run_ncall fmt norm own q)) = None <-> npanics z s own q).
Proof.
  intros A fmt norm z s own q R L. destruct (exec_ncall fmt norm z s own q (reach_wf norm fmt s R) L) as (P & D). split.
  - intros E. assert (Dec : npanics z s own q \/ ~ npanics z s own q).
    { unfold npanics. assert (Dn : (exists h, needs q = Some h /\ target s own h = z) \/ ~ exists h, needs q = Some h /\ target s own h = z).
      { destruct (needs q) as [h|]; [|right; intros (h & Q & _); discriminate].
        destruct (Nat.eq_dec (target s own h) z) as [Q|Q]; [left; exists h; auto|right; intros (h' & E' & Q'); injection E' as <-; contradiction]. }
      assert (Ds : spared q \/ ~ spared q) by (apply (spared_dec fmt norm)). tauto. }
    destruct Dec as [H|H]; [exact H|]. rewrite (D H) in E. discriminate.
  - intros H. destruct (P H) as (s1 & E & _). rewrite E. reflexivity.
Qed.
Print Assumptions C98_exactly.
(** a call that panics changes nothing that any handle shows, nor which handle
    is the global one *)
Theorem C98_unchanged : forall A (fmt : bytes -> list A -> bytes) norm z s own q, reach fmt norm s -> z < length (s_ts s) -> npanics z s own q ->
  let s' := fst (exec norm z s (run_ncall fmt norm own q)) in
  s_global s' = s_global s /\ forall h, h < length (s_ts s) -> same_view fmt norm s h s' h.
Proof.
  intros A fmt norm z s own q R L H. pose proof (reach_wf norm fmt s R) as W. destruct (exec_ncall fmt norm z s own q W L) as (P & _).
  destruct (P H) as (s1 & E & Q). rewrite E. cbv zeta. cbn [fst]. split; [apply Q|]. apply quiet_view; assumption.
Qed.
Print Assumptions C98_unchanged.
(** every other call, whichever handles are nil, does what it does when none is *)
Theorem C98_rest : forall A (fmt : bytes -> list A -> bytes) norm z s own q, reach fmt norm s -> z < length (s_ts s) -> ~ npanics z s own q ->
  exec norm z s (run_ncall fmt norm own q) = (fst (done fmt norm s own q), Some (snd (done fmt norm s own q))).
Proof. intros A fmt norm z s own q R L H. apply (exec_ncall fmt norm z s own q (reach_wf norm fmt s R) L), H. Qed.
Print Assumptions C98_rest.
(** while the global handle is nil every function of the package panics, except
    for those that return early; a program that recovers and sets the global
    handle finds all handles as they were *)
Theorem C98_recovers : forall A (fmt : bytes -> list A -> bytes) norm z s own qs g, reach fmt norm s -> z < length (s_ts s) -> s_global s = z ->
  Forall (fun q => needs q = Some HGlob) qs ->
  let (s', l) := run_ncalls fmt norm z s own qs in
  Forall2 (fun q a => a = None <-> ~ spared q) qs l
  /\ s_global s' = z /\ exec norm z s' (run_ncall fmt norm own (NSetGlobal (HShared g))) = (set_global s' g, Some (NA ANone, own))
  /\ forall h, h < length (s_ts s) -> same_view fmt norm s h (set_global s' g) h.
Proof.
  intros A fmt norm z s own qs g R L G F. pose proof (reach_wf norm fmt s R) as W. destruct (run_nil fmt norm z own qs s W G L F) as (Q & X).
  destruct (run_ncalls fmt norm z s own qs) as [s' l]. cbn [fst snd] in *. split; [exact X|]. split; [rewrite <- G; apply Q|]. split; [reflexivity|].
  intros h H. destruct Q as (_ & _ & _ & Fr). destruct (Fr h H) as [S K]. apply same_view_of; [exact W|destruct S; split; assumption|destruct K; split; assumption].
Qed.
Print Assumptions C98_recovers.

(** the methods of a nil translation: those that load panic exactly if they would
    have put a translator into an empty translation, and otherwise return what
    they return there (so LoadPo and LoadMo still report files they cannot read);
    Get and GetOrNoop always panic; adding a nil translator panics everywhere;
    and no handle shows a difference afterwards *)
Theorem C98_translation : forall A (fmt : bytes -> list A -> bytes) norm s, reach fmt norm s ->
  (forall x, as_on_empty s (add_n norm s None (Some x)) (fst (add_or_replace norm (with_empty s) (empty_of s) x)) (snd (add_or_replace norm (with_empty s) (empty_of s) x)))
  /\ (forall c, as_on_empty s (load_po_n norm s None c) (fst (load_po norm (with_empty s) (empty_of s) c)) (snd (load_po norm (with_empty s) (empty_of s) c)))
  /\ (forall c, as_on_empty s (load_mo_n norm s None c) (fst (load_mo norm (with_empty s) (empty_of s) c)) (snd (load_mo norm (with_empty s) (empty_of s) c)))
  /\ (forall f, as_on_empty s (load_file_n norm s None f) (fst (load_file norm (with_empty s) (empty_of s) f)) (snd (load_file norm (with_empty s) (empty_of s) f)))
  /\ (forall wm wp, as_on_empty s (load_fs_n norm s None wm wp) (fst (load_fs norm (with_empty s) (empty_of s) wm wp)) (snd (load_fs norm (with_empty s) (empty_of s) wm wp)))
  /\ (forall l, get_n s None l = NPanic s /\ get_or_noop_n s None l = NPanic s)
  /\ (forall t, add_n norm s t None = NPanic s).
Proof.
  intros A fmt norm s R. pose proof (reach_wf norm fmt s R) as W. split; [|split; [|split; [|split; [|split; [|split]]]]].
  - intros x. unfold add_n, add_or_replace. assert (E : fst (tor_lang (with_empty s) x) = fst (tor_lang s x)).
    { destruct x as [|a|u]; reflexivity. }
    assert (T : the_tr (snd (tor_lang (with_empty s) x)) (empty_of s) = {| tr_domain := []; tr_langs := [] |}).
    { assert (T0 : the_tr (with_empty s) (empty_of s) = {| tr_domain := []; tr_langs := [] |}) by apply nth_new.
      destruct x as [|a|u]; exact T0. }
    assert (Lt : length (s_trs (snd (tor_lang (with_empty s) x))) = length (s_trs (with_empty s))).
    { destruct x as [|a|u]; reflexivity. }
    destruct (tor_lang s x) as [l s1]. destruct (tor_lang (with_empty s) x) as [l' s1']. cbn [fst snd] in *. subst l'. destruct l as [|ch l]; cbn [fst snd as_on_empty].
    + rewrite T. split; reflexivity.
    + unfold the_tr at 1. unfold set_tr. cbn [s_trs]. rewrite nth_upd_same by (rewrite Lt; apply empty_lt). cbn [tr_langs]. apply mput_not_nil.
  - intros c. rewrite load_po_spec by apply empty_lt. pose proof (nil_like norm s _ _ _ (po_nil norm s c)) as H.
    destruct (read_po c); cbn [fst snd]; try rewrite with_files_nil in H; exact H.
  - intros c. rewrite load_mo_spec by apply empty_lt. pose proof (nil_like norm s _ _ _ (mo_nil norm s c)) as H.
    destruct (read_mo c); cbn [fst snd]; try rewrite with_files_nil in H; exact H.
  - intros f. rewrite load_file_spec by apply empty_lt. apply nil_like, file_nil.
  - intros wm wp. rewrite load_fs_spec by apply empty_lt. apply nil_like, fs_nil.
  - intros l. split; reflexivity.
  - reflexivity.
Qed.
Print Assumptions C98_translation.
Theorem C98_translation_unchanged : forall A (fmt : bytes -> list A -> bytes) norm s h, reach fmt norm s -> h < length (s_ts s) ->
  (forall x, same_view fmt norm s h (state_of (add_n norm s None x)) h)
  /\ (forall c, same_view fmt norm s h (state_of (load_po_n norm s None c)) h)
  /\ (forall c, same_view fmt norm s h (state_of (load_mo_n norm s None c)) h)
  /\ (forall f, same_view fmt norm s h (state_of (load_file_n norm s None f)) h)
  /\ (forall wm wp, same_view fmt norm s h (state_of (load_fs_n norm s None wm wp)) h).
Proof.
  intros A fmt norm s h R H. pose proof (reach_wf norm fmt s R) as W.
  assert (V : forall s1, quiet s s1 -> same_view fmt norm s h s1 h) by (intros s1 Q; apply quiet_view; assumption).
  split; [|split; [|split; [|split]]].
  - intros [x|]; [|apply V, quiet_refl, W]. apply V. unfold add_n. pose proof (quiet_lang fmt norm s x W) as Q. destruct (tor_lang s x) as [l s1]. cbn [snd] in Q.
    destruct l; exact Q.
  - intros c. apply V. eapply (nil_quiet fmt norm); [exact W|apply po_nil].
  - intros c. apply V. eapply (nil_quiet fmt norm); [exact W|apply mo_nil].
  - intros f. apply V. eapply (nil_quiet fmt norm); [exact W|apply file_nil].
  - intros wm wp. apply V. eapply (nil_quiet fmt norm); [exact W|apply fs_nil].
Qed.
Print Assumptions C98_translation_unchanged.
(** for a translation that is not nil they are the functions of TransModel.v *)
Theorem C98_translation_rest : forall A norm (s : @state A) t,
  (forall x, add_n norm s (Some t) (Some x) = NOk (fst (add_or_replace norm s t x)) (snd (add_or_replace norm s t x)))
  /\ (forall c, load_po_n norm s (Some t) c = NOk (fst (load_po norm s t c)) (snd (load_po norm s t c)))
  /\ (forall c, load_mo_n norm s (Some t) c = NOk (fst (load_mo norm s t c)) (snd (load_mo norm s t c)))
  /\ (forall f, load_file_n norm s (Some t) f = NOk (fst (load_file norm s t f)) (snd (load_file norm s t f)))
  /\ (forall wm wp, load_fs_n norm s (Some t) wm wp = NOk (fst (load_fs norm s t wm wp)) (snd (load_fs norm s t wm wp))).
Proof.
  intros A norm s t. split; [apply add_some|]. split; [apply po_some|]. split; [apply mo_some|]. split; [apply file_some|apply fs_some].
Qed.
Print Assumptions C98_translation_rest.

(** the program of PropertiesGlobal.v: handle 1 is the global one.  With 2 nil
    its methods panic and those of 0 and 1 do not, MostMatchLocale of 2 neither;
    with 1 nil the functions of the package panic *)
Definition nil_walk : list event := [EEntry false (B "x.txt") None; EErr].
Definition nil_calls (h : href) : list (@ncall unit) :=
  [NCall (QX h [] (B "hi") []); NCall (QSetDomain h (B "a")); NCall (QClear h); NCall (QRemove h []); NCall (QRemove h (B "a"));
   NCall (QBind h (B "a") nil_walk ex_walk); NCall (QBind h (B "a") nil_walk nil_walk); NCall (QLocales h); NGet h (B "a"); NCall (QMost h);
   NCall (QUserLang None); NCall (QUserLang (Some (B "fr")))].
Definition ends (z : nat) (h : href) : list bool :=
  map (fun q => match snd (exec ex_norm z ex2 (run_ncall ex_fmt ex_norm [] q)) with None => true | Some _ => false end) (nil_calls h).
Example C98_case : ends 2 (HShared 2) = [true; true; true; false; true; true; false; true; true; false; false; false]
  /\ ends 2 (HShared 0) = repeat false 12
  /\ ends 1 HGlob = [true; true; true; false; true; true; false; true; true; true; true; false]
  /\ snd (exec ex_norm 2 ex2 (run_ncall ex_fmt ex_norm [] (NCall (QX (HShared 0) [] (B "hi") [])))) = Some (NA (AText (B "ni hao")), []).
Proof. vm_compute. auto. Qed.
Example C98_hypotheses : reach ex_fmt ex_norm ex2 /\ npanics 2 ex2 [] (NCall (QX (HShared 2) [] (B "hi") []))
  /\ ~ npanics 2 ex2 [] (NCall (QX (HShared 0) [] (B "hi") [])) /\ ~ npanics 2 ex2 [] (NCall (QMost (HShared 2))).
Proof.
  split; [exact ex2_reach|]. split; [split; [exists (HShared 2); split; reflexivity|intros []]|]. split; intros ((h & E & Q) & _); injection E as <-; discriminate.
Qed.
(** a nil translation takes a text that is no catalog, and not the catalog of [ex_walk] *)
Example C98_translation_case : load_po_n ex_norm ex2 None (B "no catalog") = NOk false ex2
  /\ match load_fs_n ex_norm ex2 None nil_walk ex_walk with NPanic _ => True | NOk _ _ => False end
  /\ match load_fs_n ex_norm ex2 None nil_walk nil_walk with NPanic _ => False | NOk b _ => b = false end.
Proof. vm_compute. auto. Qed.
