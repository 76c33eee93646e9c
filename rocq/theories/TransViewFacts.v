(** Facts about what is seen through handles. *)
From Coq Require Import Lia Permutation.
From Verif Require Import GoStr GoStrFacts GoMap GoMapFacts FileModel FileFacts PoModel MoModel TransModel TransSpec TransFacts.
From Verif Require Export TransFrameFacts.

Section Facts.
Context {A : Type}.
Variable fmt : bytes -> list A -> bytes.
Variable norm : bytes -> bytes.
Notation state := (@state A).
Implicit Types s : state.
Notation do_op := (do_op fmt norm).
Notation reach := (reach fmt norm).
Notation reach_clean := (reach_clean fmt norm).
Notation same_answers := (same_answers fmt norm).
Notation same_at := (same_at fmt norm).
Notation same_view := (same_view fmt norm).
Notation source_text := (source_text fmt).
Notation answers_from := (answers_from fmt).
Notation answers_tor := (answers_tor fmt).
Notation steps := (steps fmt norm).

(** ** Handles with maps of their own *)
Lemma tr_known s h d : wf s -> h_get_or_noop s h d < length (s_trs s).
Proof. first [apply (@TransFrameFacts.tr_known A true)|apply (@TransFrameFacts.tr_known A fmt norm true)|apply (@TransFrameFacts.tr_known A norm true)|apply (@TransFrameFacts.tr_known A fmt true)]. Qed.
Lemma tor_is_known s h : wf s -> tor_known s (the_tor s h).
Proof. first [apply (@TransFrameFacts.tor_is_known A true)|apply (@TransFrameFacts.tor_is_known A fmt norm true)|apply (@TransFrameFacts.tor_is_known A norm true)|apply (@TransFrameFacts.tor_is_known A fmt true)]. Qed.
Lemma same_answers_of s h s' h' : wf s -> keeps s s' ->
  h_locale s h = h_locale s' h' -> h_domain s h = h_domain s' h' -> h_source s h = h_source s' h' ->
  h_get s h (h_domain s h) = h_get s' h' (h_domain s' h') -> same_answers s h s' h'.
Proof. first [apply (@TransFrameFacts.same_answers_of A true)|apply (@TransFrameFacts.same_answers_of A fmt norm true)|apply (@TransFrameFacts.same_answers_of A norm true)|apply (@TransFrameFacts.same_answers_of A fmt true)]. Qed.
Lemma same_at_of s h s' h' : wf s -> same_handle s h s' h' -> keeps s s' -> same_at s h s' h'.
Proof. first [apply (@TransFrameFacts.same_at_of A true)|apply (@TransFrameFacts.same_at_of A fmt norm true)|apply (@TransFrameFacts.same_at_of A norm true)|apply (@TransFrameFacts.same_at_of A fmt true)]. Qed.
Lemma same_view_of s h s' h' : wf s -> same_handle s h s' h' -> keeps s s' -> same_view s h s' h'.
Proof. first [apply (@TransFrameFacts.same_view_of A true)|apply (@TransFrameFacts.same_view_of A fmt norm true)|apply (@TransFrameFacts.same_view_of A norm true)|apply (@TransFrameFacts.same_view_of A fmt true)]. Qed.
Lemma fresh_old s r g h : wf s -> h < length (s_ts s) -> same_handle s h (fresh s r g) h.
Proof. first [apply (@TransFrameFacts.fresh_old A true)|apply (@TransFrameFacts.fresh_old A fmt norm true)|apply (@TransFrameFacts.fresh_old A norm true)|apply (@TransFrameFacts.fresh_old A fmt true)]. Qed.
Lemma clone_new s h : wf s -> h < length (s_ts s) -> same_handle s h (snd (clone s h)) (fst (clone s h)).
Proof. first [apply (@TransFrameFacts.clone_new A true)|apply (@TransFrameFacts.clone_new A fmt norm true)|apply (@TransFrameFacts.clone_new A norm true)|apply (@TransFrameFacts.clone_new A fmt true)]. Qed.
Lemma clone_frame s h h' : wf s -> h' < length (s_ts s) -> frame s (snd (clone s h)) h'.
Proof. first [apply (@TransFrameFacts.clone_frame A true)|apply (@TransFrameFacts.clone_frame A fmt norm true)|apply (@TransFrameFacts.clone_frame A norm true)|apply (@TransFrameFacts.clone_frame A fmt true)]. Qed.
Lemma D_frame s h d h' : wf s -> h' < length (s_ts s) -> frame s (snd (h_D s h d)) h'.
Proof. first [apply (@TransFrameFacts.D_frame A true)|apply (@TransFrameFacts.D_frame A fmt norm true)|apply (@TransFrameFacts.D_frame A norm true)|apply (@TransFrameFacts.D_frame A fmt true)]. Qed.
Lemma L_frame s h l d h' : wf s -> h' < length (s_ts s) -> frame s (snd (h_L norm s h l d)) h'.
Proof. first [apply (@TransFrameFacts.L_frame A true)|apply (@TransFrameFacts.L_frame A fmt norm true)|apply (@TransFrameFacts.L_frame A norm true)|apply (@TransFrameFacts.L_frame A fmt true)]. Qed.
Lemma with_frame s c d h' : wf s -> h' < length (s_ts s) -> frame s (snd (with_context norm s c d)) h'.
Proof. first [apply (@TransFrameFacts.with_frame A true)|apply (@TransFrameFacts.with_frame A fmt norm true)|apply (@TransFrameFacts.with_frame A norm true)|apply (@TransFrameFacts.with_frame A fmt true)]. Qed.
Lemma clear_other s h h' : wf s -> h' <> h -> h' < length (s_ts s) -> frame s (clear_domains s h) h'.
Proof. first [apply (@TransFrameFacts.clear_other A true)|apply (@TransFrameFacts.clear_other A fmt norm true)|apply (@TransFrameFacts.clear_other A norm true)|apply (@TransFrameFacts.clear_other A fmt true)]. Qed.
Lemma apart_frame s o h : wf s -> known s o -> elsewhere h s o ->
  match o with OBind h' _ _ _ | ORemove h' _ => t_map (the_ts s h) <> t_map (the_ts s h') | _ => True end ->
  h < length (s_ts s) -> frame s (do_op s o) h.
Proof. first [apply (@TransFrameFacts.apart_frame A true)|apply (@TransFrameFacts.apart_frame A fmt norm true)|apply (@TransFrameFacts.apart_frame A norm true)|apply (@TransFrameFacts.apart_frame A fmt true)]. Qed.
Lemma elsewhere_frame s o h : wf s -> known s o -> elsewhere h s o -> h < length (s_ts s) -> frame s (do_op s o) h.
Proof.
  intros W K E H. apply (apart_frame s o h W K E); [|exact H]. destruct E as [_ E].
  destruct o; try exact I; cbn [known on_handle] in *; intros M; apply (w_own s W) in M; congruence.
Qed.
Lemma steps_wf P s s' : wf s -> steps P s s' -> wf s'.
Proof. intros W S. induction S as [|s o s' K _ S IH]; [exact W|]. apply IH, wf_step; assumption. Qed.
Theorem elsewhere_view s s' h : wf s -> h < length (s_ts s) -> steps (elsewhere h) s s' -> same_view s h s' h.
Proof.
  intros W H S. assert (F : frame s s' h); [|apply same_view_of; [exact W|apply F|apply F]].
  induction S as [s|s o s' K P S IH]; [split; [apply same_handle_refl, H|apply keeps_refl]|].
  pose proof (elsewhere_frame s o h W K P H) as F. eapply frame_trans; [exact F|]. apply IH; [apply wf_step; assumption|apply F].
Qed.

(** ** New handles *)
Lemma set_ts_at s h r : h < length (s_ts s) -> the_ts (set_ts s h r) h = r.
Proof. intros H. unfold the_ts, set_ts. cbn [s_ts]. apply nth_upd_same, H. Qed.
Lemma retarget_same s h : h < length (s_ts s) -> same_handle s h (retarget s h (h_domain s h) (h_locale s h)) h.
Proof.
  intros H. split; unfold h_locale, h_domain, h_source, h_domains; rewrite ?retarget_ts by exact H; auto.
  unfold retarget, set_ts. cbn [s_ts]. rewrite upd_length. exact H.
Qed.
Lemma same_handle_sym s h s' h' : same_handle s h s' h' -> same_handle s' h' s h.
Proof. intros []. split; auto. Qed.
(** same handle as the receiver but for the domain and locale *)
Lemma D_new s h d : wf s -> h < length (s_ts s) ->
  same_handle (retarget s h d (h_locale s h)) h (snd (h_D s h d)) (fst (h_D s h d)) /\ keeps s (snd (h_D s h d)).
Proof.
  intros W H. split; [|apply (D_frame s h d h W H)]. unfold h_D. pose proof (clone_new s h W H) as C.
  pose proof (clone_fst s h) as E. pose proof (clone_len s h) as L.
  destruct (clone s h) as [r s1]. cbn [fst snd] in *. subst r. destruct C as [C1 C2 C3 C4 C5 C6].
  assert (T : the_ts (set_domain s1 (length (s_ts s)) d) (length (s_ts s)) =
    {| t_locale := h_locale s1 (length (s_ts s)); t_domain := d; t_map := t_map (the_ts s1 (length (s_ts s))); t_source := h_source s1 (length (s_ts s)) |})
    by (apply set_ts_at; lia).
  assert (R : the_ts (retarget s h d (h_locale s h)) h =
    {| t_locale := h_locale s h; t_domain := d; t_map := t_map (the_ts s h); t_source := h_source s h |}) by (apply retarget_ts, H).
  eapply handle_eq; [exact R|exact T| | | | | |]; cbn [t_locale t_domain t_source t_map]; auto.
  - unfold retarget, set_ts. cbn [s_ts]. rewrite upd_length. exact H.
  - unfold set_domain, set_ts. cbn [s_ts]. rewrite upd_length. lia.
Qed.
Definition spelled (l d : bytes) : bytes := match l with [] => d | _ => norm l end.
Lemma L_new s h l d : wf s -> h < length (s_ts s) ->
  same_handle (retarget s h (h_domain s h) (spelled l d)) h (snd (h_L norm s h l d)) (fst (h_L norm s h l d))
  /\ keeps s (snd (h_L norm s h l d)).
Proof.
  intros W H. split; [|apply (L_frame s h l d h W H)]. unfold h_L. pose proof (clone_new s h W H) as C.
  pose proof (clone_fst s h) as E. pose proof (clone_len s h) as L.
  destruct (clone s h) as [r s1]. cbn [fst snd] in *. subst r. destruct C as [C1 C2 C3 C4 C5 C6].
  assert (T : the_ts (set_locale norm s1 (length (s_ts s)) l d) (length (s_ts s)) =
    {| t_locale := spelled l d; t_domain := h_domain s1 (length (s_ts s)); t_map := t_map (the_ts s1 (length (s_ts s))); t_source := h_source s1 (length (s_ts s)) |})
    by (apply set_ts_at; lia).
  assert (R : the_ts (retarget s h (h_domain s h) (spelled l d)) h =
    {| t_locale := spelled l d; t_domain := h_domain s h; t_map := t_map (the_ts s h); t_source := h_source s h |}) by (apply retarget_ts, H).
  eapply handle_eq; [exact R|exact T| | | | | |]; cbn [t_locale t_domain t_source t_map]; auto.
  - unfold retarget, set_ts. cbn [s_ts]. rewrite upd_length. exact H.
  - unfold set_locale, set_ts. cbn [s_ts]. rewrite upd_length. lia.
Qed.
Lemma retarget_twice s h d l d' l' : h < length (s_ts s) -> retarget (retarget s h d l) h d' l' = retarget s h d' l'.
Proof.
  intros H. unfold retarget at 1. rewrite retarget_ts by exact H. cbn [t_map t_source]. unfold retarget, set_ts. cbn [s_ts s_maps s_trs s_files s_global].
  rewrite upd_upd. reflexivity.
Qed.
Lemma retarget_locale s h d l : h < length (s_ts s) -> h_locale (retarget s h d l) h = l.
Proof. intros H. unfold h_locale. rewrite retarget_ts by exact H. reflexivity. Qed.
Lemma retarget_domain s h d l : h < length (s_ts s) -> h_domain (retarget s h d l) h = d.
Proof. intros H. unfold h_domain. rewrite retarget_ts by exact H. reflexivity. Qed.
Lemma retarget_len s h d l : length (s_ts (retarget s h d l)) = length (s_ts s).
Proof. unfold retarget, set_ts. cbn [s_ts]. apply upd_length. Qed.
Lemma keeps_retarget s h d l s' : keeps s s' -> keeps (retarget s h d l) s'.
Proof. intros [A1 A2 A3 A4]. split; assumption. Qed.
Lemma with_new s c d : wf s ->
  let g := s_global s in
  let loc := match get_ctx_locale c with Some l => spelled l d | None => h_locale s g end in
  let dom := match get_ctx_domain c with Some x => x | None => h_domain s g end in
  let p := with_context norm s c d in
  same_handle (retarget s g dom loc) g (snd p) (fst p) /\ keeps s (snd p) /\ length (s_ts s) <= fst p.
Proof.
  intros W. cbn zeta. pose proof (w_global s W) as H. remember (s_global s) as g eqn:Eg. unfold with_context, g_clone. rewrite <- Eg.
  pose proof (clone_new s g W H) as C. pose proof (clone_frame s g g W H) as Fr.
  pose proof (wf_clone s g W) as W1. pose proof (clone_fst s g) as E1.
  destruct (clone s g) as [h1 s1]. cbn [fst snd] in C, Fr, W1, E1.
  set (p := match get_ctx_locale c with Some l => h_L norm s1 h1 l d | None => _ end).
  set (loc := match get_ctx_locale c with Some l => spelled l d | None => _ end).
  assert (P : same_handle (retarget s g (h_domain s g) loc) g (snd p) (fst p) /\ keeps s (snd p) /\ wf (snd p) /\ length (s_ts s) <= fst p).
  { unfold p, loc. destruct (get_ctx_locale c) as [l|]; cbn [fst snd].
    - destruct (L_new s1 h1 l d W1 (sh_r _ _ _ _ C)) as [S K]. split; [|split; [|split]].
      + eapply same_handle_trans; [|exact S]. rewrite (sh_domain _ _ _ _ C). apply retarget_handle, C.
      + eapply keeps_trans; [apply Fr|exact K].
      + apply wf_L, W1.
      + rewrite L_fst. pose proof (sh_r _ _ _ _ C). lia.
    - split; [|split; [apply Fr|split; [exact W1|lia]]]. eapply same_handle_trans; [|exact C].
      apply same_handle_sym, retarget_same, H. }
  destruct p as [h2 s2]. cbn [fst snd] in P. destruct P as (P1 & P2 & P3 & P4).
  destruct (get_ctx_domain c) as [x|]; [|split; [exact P1|split; [exact P2|exact P4]]].
  destruct (D_new s2 h2 x P3 (sh_r _ _ _ _ P1)) as [S K]. split; [|split].
  - eapply same_handle_trans; [|exact S]. rewrite <- (sh_locale _ _ _ _ P1), retarget_locale by exact H.
    rewrite <- (retarget_twice s g (h_domain s g) loc) by exact H. apply retarget_handle, P1.
  - eapply keeps_trans; [exact P2|exact K].
  - rewrite D_fst. pose proof (sh_r _ _ _ _ P1). lia.
Qed.

(** ** Source texts *)
Lemma english_default i i2 n args : default_plural fmt i i2 n args = fmt (english i i2 n) args.
Proof. unfold default_plural, english. destruct i2 as [|c r]; cbn [is_empty]; destruct (n =? 1)%Z; reflexivity. Qed.
Lemma noop_source s h : the_tor s h = TNoop -> source_text s h.
Proof.
  intros E. split; intros; unfold h_x, h_xn64; rewrite E; [reflexivity|]. cbn [tor_xn fst]. rewrite english_default. reflexivity.
Qed.
Lemma tor_answers s h : answers_tor s h (the_tor s h).
Proof.
  destruct (the_tor s h) as [|a|u] eqn:E; cbn [TransSpec.answers_tor]; [apply noop_source, E| |]; split; intros; unfold h_x, h_xn64; rewrite E;
    try reflexivity. apply tor_xn_file.
Qed.
Lemma no_catalog s h t : h_get s h (h_domain s h) = Some t -> tr_get (the_tr s t) (h_locale s h) = None -> source_text s h.
Proof.
  intros D L. apply noop_source. unfold the_tor, h_get_or_noop, tr_get_or_noop. rewrite D. unfold tr_get in L. rewrite L. reflexivity.
Qed.
Lemma catalog_used s h t x : h_get s h (h_domain s h) = Some t -> tr_get (the_tr s t) (h_locale s h) = Some x -> the_tor s h = x.
Proof. intros D L. unfold the_tor, h_get_or_noop, tr_get_or_noop. rewrite D. unfold tr_get in L. rewrite L. reflexivity. Qed.
(** the shared empty translation stays empty *)
Lemma noop_kept s o : wf s -> known s o -> ~ spoils_noop o -> tr_langs (the_tr s tr_noop) = [] ->
  tr_langs (the_tr (do_op s o) tr_noop) = [].
Proof.
  intros W K N E. pose proof (w_noop s W) as Ln.
  assert (G : forall t, t < length (s_trs s) -> keeps s (do_op s o) -> t = tr_noop -> tr_langs (the_tr (do_op s o) t) = []).
  { intros t Ht Kp ->. rewrite (k_trs _ _ Kp) by exact Ht. exact E. }
  assert (Q : ~ direct o -> on_handle o = None -> keeps s (do_op s o)).
  { intros Nd No. apply (elsewhere_frame s o (s_global s) W K). split; [exact Nd|congruence]. apply W. }
  assert (Wf : forall t cs, t <> tr_noop -> tr_langs (the_tr (with_files norm s t cs) tr_noop) = []).
  { intros t cs Nt. rewrite with_files_old by congruence. exact E. }
  destruct o; try (apply (G tr_noop Ln); [|reflexivity]; apply Q; [solve [intros []]|reflexivity]);
    cbn [TransModel.do_op known spoils_noop] in *.
  - exact E.
  - exact E.
  - exact E.
  - apply (G tr_noop Ln); [apply bind_keeps|reflexivity].
  - assert (Kp : keeps s (snd (remove_domain s h domain))).
    { unfold remove_domain. destruct domain; [apply keeps_refl|]. destruct (negb _); [apply keeps_refl|]. cbn [snd].
      eapply keeps_trans; [apply set_map_keeps|]. destruct (beq _ _); [apply set_ts_keeps|apply keeps_refl]. }
    rewrite (k_trs _ _ Kp) by exact Ln. exact E.
  - exact E.
  - unfold add_or_replace. assert (T : the_tr (snd (tor_lang s x)) = the_tr s) by (destruct x; reflexivity).
    destruct (tor_lang s x) as [l s1]. cbn [snd] in T. destruct l; cbn [snd]; [rewrite T; exact E|].
    unfold the_tr, set_tr. cbn [s_trs]. rewrite nth_upd_other by congruence. change (tr_langs (the_tr s1 tr_noop) = []). rewrite T. exact E.
  - rewrite load_po_spec by exact K. destruct (read_po content); try exact E. apply Wf, N.
  - rewrite load_mo_spec by exact K. destruct (read_mo content); try exact E. apply Wf, N.
  - rewrite load_fs_spec by exact K. apply Wf, N.
  - exact E.
Qed.
Lemma reach_clean_reach s : reach_clean s -> reach s.
Proof. intros R. induction R; [apply R_init|apply R_step; assumption]. Qed.
Lemma clean_noop s : reach_clean s -> tr_langs (the_tr s tr_noop) = [].
Proof.
  intros R. induction R as [d|s o R IH K N]; [reflexivity|].
  apply noop_kept; auto. eapply reach_wf, reach_clean_reach, R.
Qed.
Lemma no_domain s h : tr_langs (the_tr s tr_noop) = [] -> h_get s h (h_domain s h) = None -> source_text s h.
Proof.
  intros E D. apply noop_source. unfold the_tor, h_get_or_noop, tr_get_or_noop. rewrite D, E. reflexivity.
Qed.
End Facts.
