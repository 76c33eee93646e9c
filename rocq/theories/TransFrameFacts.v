(** Facts about what is seen through handles, whether or not two of them have the same map. *)
From Coq Require Import Lia Permutation.
From Verif Require Import GoStr GoStrFacts GoMap GoMapFacts FileModel FileFacts PoModel MoModel TransModel TransSpec TransFacts.

Section Facts.
Context {A : Type}.
Variable fmt : bytes -> list A -> bytes.
Variable norm : bytes -> bytes.
Notation state := (@state A).
Implicit Types s : state.
Notation do_op := (do_op fmt norm).
Notation reach := (reach fmt norm).
Notation reach_clean := (reach_clean fmt norm).
Notation same_answers := (same_answers fmt norm).
Notation same_at := (same_at fmt norm).
Notation same_view := (same_view fmt norm).
Notation source_text := (source_text fmt).
Notation answers_from := (answers_from fmt).
Notation answers_tor := (answers_tor fmt).
Notation steps := (steps fmt norm).

Context {own : bool}.
(** ** Handles with equal fields *)
Record same_handle (s : state) (h : nat) (s' : state) (h' : nat) : Prop := {
  sh_locale : h_locale s h = h_locale s' h';
  sh_domain : h_domain s h = h_domain s' h';
  sh_source : h_source s h = h_source s' h';
  sh_domains : h_domains s h = h_domains s' h';
  sh_l : h < length (s_ts s);
  sh_r : h' < length (s_ts s') }.
Lemma handle_eq s h s' h' r r' : the_ts s h = r -> the_ts s' h' = r' ->
  t_locale r = t_locale r' -> t_domain r = t_domain r' -> t_source r = t_source r' ->
  the_map s (t_map r) = the_map s' (t_map r') -> h < length (s_ts s) -> h' < length (s_ts s') -> same_handle s h s' h'.
Proof. intros <- <-. intros. split; assumption. Qed.
Lemma same_handle_trans s1 h1 s2 h2 s3 h3 :
  same_handle s1 h1 s2 h2 -> same_handle s2 h2 s3 h3 -> same_handle s1 h1 s3 h3.
Proof. intros [] []. split; congruence || assumption. Qed.
Lemma same_handle_refl s h : h < length (s_ts s) -> same_handle s h s h.
Proof. intros H. split; auto. Qed.
Lemma tr_known s h d : wf_ own s -> h_get_or_noop s h d < length (s_trs s).
Proof.
  intros W. unfold h_get_or_noop, h_get. destruct (mget d (h_domains s h)) as [t|] eqn:E; [|apply W].
  apply (w_trs s W _ _ _ E).
Qed.
Lemma tor_is_known s h : wf_ own s -> tor_known s (the_tor s h).
Proof.
  intros W. unfold the_tor, tr_get_or_noop. destruct (mget _ _) as [x|] eqn:E; [|exact I]. exact (w_tors s W _ _ _ E).
Qed.
Lemma tor_xn_file s a c i i2 n args : fst (tor_xn fmt s (TFile a) c i i2 n args) = fst (f_xn64 fmt (the_file s a) c i i2 n args).
Proof. unfold tor_xn. destruct (f_xn64 fmt (the_file s a) c i i2 n args). reflexivity. Qed.
Lemma same_answers_of s h s' h' : wf_ own s -> keeps s s' ->
  h_locale s h = h_locale s' h' -> h_domain s h = h_domain s' h' -> h_source s h = h_source s' h' ->
  h_get s h (h_domain s h) = h_get s' h' (h_domain s' h') -> same_answers s h s' h'.
Proof.
  intros W K El Ed Es Eg. pose proof (tor_is_known s h W) as Tk.
  assert (G : the_tr s' (h_get_or_noop s' h' (h_domain s' h')) = the_tr s (h_get_or_noop s h (h_domain s h))).
  { rewrite <- (k_trs _ _ K) by apply tr_known, W. unfold h_get_or_noop. rewrite Eg. reflexivity. }
  assert (T : the_tor s h = the_tor s' h') by (unfold the_tor; rewrite G, El; reflexivity).
  split.
  { unfold used_locale. rewrite <- Eg, <- Es, <- El. destruct (h_get s h (h_domain s h)) as [t|] eqn:E; [|reflexivity].
    rewrite (k_trs _ _ K) by apply (w_trs s W _ _ _ E). reflexivity. }
  split.
  { intros out. unfold locales. cbn zeta. rewrite G, Es. reflexivity. }
  split.
  - intros c i args. unfold h_x. rewrite <- T. destruct (the_tor s h) as [|a|u]; try reflexivity.
    cbn [tor_x]. apply same_x, (k_files _ _ K), Tk.
  - intros c i i2 n args. unfold h_xn64. rewrite <- T. destruct (the_tor s h) as [|a|u]; try reflexivity.
    rewrite !tor_xn_file. apply same_xn, (k_files _ _ K), Tk.
Qed.
Lemma same_at_of s h s' h' : wf_ own s -> same_handle s h s' h' -> keeps s s' -> same_at s h s' h'.
Proof.
  intros W [E1 E2 E3 E4 E5 E6] K. repeat (split; [assumption || (intros d; unfold has_domain; rewrite E4; reflexivity)|]).
  apply same_answers_of; auto. unfold h_get. rewrite E4, E2. reflexivity.
Qed.
Lemma retarget_ts s h d l : h < length (s_ts s) -> the_ts (retarget s h d l) h =
  {| t_locale := l; t_domain := d; t_map := t_map (the_ts s h); t_source := t_source (the_ts s h) |}.
Proof. intros H. unfold the_ts, retarget, set_ts. cbn [s_ts]. apply nth_upd_same, H. Qed.
Lemma retarget_handle s h s' h' d l : same_handle s h s' h' -> same_handle (retarget s h d l) h (retarget s' h' d l) h'.
Proof.
  intros [A1 A2 A3 A4 A5 A6]. split; unfold h_locale, h_domain, h_source, h_domains; rewrite ?retarget_ts by assumption;
    cbn [t_locale t_domain t_source t_map]; auto; unfold retarget, set_ts; cbn [s_ts]; rewrite upd_length; assumption.
Qed.
Lemma retarget_keeps s h s' h' d l : keeps s s' -> keeps (retarget s h d l) (retarget s' h' d l).
Proof. intros [K1 K2 K3 K4]. split; assumption. Qed.
Lemma retarget_wf s h d l : wf_ own s -> wf_ own (retarget s h d l).
Proof. intros W. apply wf_set_ts; [exact W|reflexivity]. Qed.
Lemma same_view_of s h s' h' : wf_ own s -> same_handle s h s' h' -> keeps s s' -> same_view s h s' h'.
Proof.
  intros W H K. split; [apply same_at_of; assumption|]. intros d l.
  apply same_at_of; [apply retarget_wf, W|apply retarget_handle, H|apply retarget_keeps, K].
Qed.

(** ** Calls on other handles *)
Lemma set_ts_other s h r h' : h' <> h -> h' < length (s_ts s) -> same_handle s h' (set_ts s h r) h'.
Proof.
  intros N H. assert (E : the_ts (set_ts s h r) h' = the_ts s h') by (unfold the_ts, set_ts; cbn [s_ts]; apply nth_upd_other, N).
  split; unfold h_locale, h_domain, h_source, h_domains; rewrite ?E; auto. unfold set_ts. cbn [s_ts]. rewrite upd_length. exact H.
Qed.
Lemma set_ts_keeps s h r : keeps s (set_ts s h r).
Proof. split; auto. intros. apply same_file_refl. Qed.
Lemma set_map_apart s h g h' : t_map (the_ts s h') <> t_map (the_ts s h) -> h' < length (s_ts s) ->
  same_handle s h' (set_map s (t_map (the_ts s h)) g) h'.
Proof.
  intros N H'. split; auto. unfold h_domains. rewrite the_map_upd.
  change (the_ts (set_map s (t_map (the_ts s h)) g) h') with (the_ts s h').
  destruct (Nat.eqb_spec (t_map (the_ts s h')) (t_map (the_ts s h))) as [Q|Q]; [contradiction|reflexivity].
Qed.
Lemma set_map_keeps (s : state) m g : keeps s (set_map s m g).
Proof. split; auto. intros. apply same_file_refl. Qed.
Lemma fresh_old s r g h : wf_ own s -> h < length (s_ts s) -> same_handle s h (fresh s r g) h.
Proof.
  intros W H. assert (E : the_ts (fresh s r g) h = the_ts s h) by (apply nth_app_old, H).
  split; unfold h_locale, h_domain, h_source, h_domains; rewrite ?E; auto.
  - unfold the_map, fresh. cbn [s_maps]. rewrite nth_app_old by (apply (w_maps s W), H). reflexivity.
  - cbn. rewrite app_length. lia.
Qed.
Lemma fresh_keeps s r g : keeps s (fresh s r g).
Proof. split; auto. intros. apply same_file_refl. Qed.
Lemma clone_new s h : wf_ own s -> h < length (s_ts s) -> same_handle s h (snd (clone s h)) (fst (clone s h)).
Proof.
  intros W H. rewrite clone_eq. cbn [fst snd]. set (r := {| t_locale := _ |}).
  assert (E : the_ts (fresh s r (h_domains s h)) (length (s_ts s)) = r) by apply nth_new.
  apply (handle_eq _ _ _ _ (the_ts s h) r); auto.
  - cbn [t_map r]. unfold the_map at 2, fresh. cbn [s_maps]. rewrite nth_new. reflexivity.
  - cbn. rewrite app_length. cbn. lia.
Qed.
Lemma clone_fst (s : state) h : fst (clone s h) = length (s_ts s). Proof. reflexivity. Qed.
Lemma clone_len (s : state) h : length (s_ts (snd (clone s h))) = S (length (s_ts s)).
Proof. cbn. rewrite app_length. cbn. lia. Qed.
Definition frame (s s' : state) (h : nat) : Prop := same_handle s h s' h /\ keeps s s'.
Lemma frame_trans s1 s2 s3 h : frame s1 s2 h -> frame s2 s3 h -> frame s1 s3 h.
Proof. intros [] []. split; [eapply same_handle_trans|eapply keeps_trans]; eassumption. Qed.
Lemma clone_frame s h h' : wf_ own s -> h' < length (s_ts s) -> frame s (snd (clone s h)) h'.
Proof. intros W H. rewrite clone_eq. split; [apply fresh_old; assumption|apply fresh_keeps]. Qed.
Lemma set_ts_frame s h r h' : h' <> h -> h' < length (s_ts s) -> frame s (set_ts s h r) h'.
Proof. intros N H. split; [apply set_ts_other; assumption|apply set_ts_keeps]. Qed.
Lemma D_frame s h d h' : wf_ own s -> h' < length (s_ts s) -> frame s (snd (h_D s h d)) h'.
Proof.
  intros W H. unfold h_D. pose proof (clone_frame s h h' W H) as F. pose proof (clone_fst s h) as E.
  pose proof (clone_len s h) as L. destruct (clone s h) as [r s1]. cbn [fst snd] in *. subst r.
  eapply frame_trans; [exact F|]. apply set_ts_frame; lia.
Qed.
Lemma L_frame s h l d h' : wf_ own s -> h' < length (s_ts s) -> frame s (snd (h_L norm s h l d)) h'.
Proof.
  intros W H. unfold h_L. pose proof (clone_frame s h h' W H) as F. pose proof (clone_fst s h) as E.
  pose proof (clone_len s h) as L. destruct (clone s h) as [r s1]. cbn [fst snd] in *. subst r.
  eapply frame_trans; [exact F|]. apply set_ts_frame; lia.
Qed.
Lemma D_fst (s : state) h d : fst (h_D s h d) = length (s_ts s). Proof. reflexivity. Qed.
Lemma L_fst (s : state) h l d : fst (h_L norm s h l d) = length (s_ts s). Proof. reflexivity. Qed.
Lemma D_len (s : state) h d : length (s_ts (snd (h_D s h d))) = S (length (s_ts s)).
Proof. unfold h_D, set_domain, set_ts. cbn. rewrite upd_length, app_length. cbn. lia. Qed.
Lemma L_len (s : state) h l d : length (s_ts (snd (h_L norm s h l d))) = S (length (s_ts s)).
Proof. unfold h_L, set_locale, set_ts. cbn. rewrite upd_length, app_length. cbn. lia. Qed.
Lemma with_frame s c d h' : wf_ own s -> h' < length (s_ts s) -> frame s (snd (with_context norm s c d)) h'.
Proof.
  intros W H. unfold with_context, g_clone. pose proof (clone_frame s (s_global s) h' W H) as F. pose proof (clone_len s (s_global s)) as L.
  pose proof (wf_clone s (s_global s) W) as W1. destruct (clone s (s_global s)) as [h1 s1]. cbn [fst snd] in *.
  set (p := match get_ctx_locale c with Some l => _ | None => _ end).
  assert (F2 : frame s (snd p) h' /\ wf_ own (snd p) /\ h' < length (s_ts (snd p))).
  { unfold p. destruct (get_ctx_locale c); [|cbn [snd]; split; [exact F|split; [exact W1|rewrite L; lia]]].
    split; [|split; [apply wf_L, W1|rewrite L_len; lia]]. eapply frame_trans; [exact F|]. apply L_frame; [exact W1|lia]. }
  destruct p as [h2 s2]. cbn [snd] in F2. destruct F2 as (F2 & W2 & H2).
  destruct (get_ctx_domain c); [|exact F2]. eapply frame_trans; [exact F2|]. apply D_frame; assumption.
Qed.
Lemma bind_ts s h d wm wp : s_ts (bind_fs norm s h d wm wp) = s_ts s.
Proof. rewrite bind_fs_spec. cbn zeta. destruct (existsb okb _); reflexivity. Qed.
Lemma bind_apart s h d wm wp h' : t_map (the_ts s h') <> t_map (the_ts s h) -> h' < length (s_ts s) ->
  frame s (bind_fs norm s h d wm wp) h'.
Proof.
  intros N H'. split; [|apply bind_keeps]. rewrite bind_fs_spec. cbn zeta.
  set (s1 := with_files _ _ _ _). assert (S1 : same_handle s h' s1 h') by (split; auto).
  destruct (existsb okb _); [|exact S1]. destruct (set_map_apart s h (mput d (length (s_trs s)) (h_domains s h)) h' N H').
  split; auto.
Qed.
Lemma xn_frame s h c i i2 n args h' : h' < length (s_ts s) -> frame s (snd (h_xn64 fmt s h c i i2 n args)) h'.
Proof.
  intros H. unfold h_xn64, tor_xn. destruct (the_tor s h) as [|a|u]; try (split; [apply same_handle_refl, H|apply keeps_refl]).
  pose proof (xn_same fmt (the_file s a) c i i2 n args) as S. destruct (f_xn64 fmt (the_file s a) c i i2 n args) as [r f]. cbn [snd] in *.
  split; [split; auto|]. split; auto; [|cbn; rewrite upd_length; lia].
  intros b Hb. destruct (Nat.eq_dec b a) as [->|N].
  - unfold the_file at 2, set_file. cbn [s_files]. rewrite nth_upd_same by exact Hb. exact S.
  - unfold the_file at 2, set_file. cbn [s_files]. rewrite nth_upd_other by exact N. apply same_file_refl.
Qed.
Lemma remove_apart s h d h' : t_map (the_ts s h') <> t_map (the_ts s h) -> h' < length (s_ts s) ->
  frame s (snd (remove_domain s h d)) h'.
Proof.
  intros N H'. assert (Nh : h' <> h) by congruence. assert (R : frame s s h') by (split; [apply same_handle_refl, H'|apply keeps_refl]).
  unfold remove_domain. destruct d as [|c d]; [exact R|]. destruct (negb _); [exact R|]. cbn [snd].
  set (s1 := set_map _ _ _). assert (F : frame s s1 h') by (split; [apply set_map_apart; assumption|apply set_map_keeps]).
  destruct (beq _ _); [|exact F]. eapply frame_trans; [exact F|]. apply set_ts_frame; assumption.
Qed.
Lemma clear_other s h h' : wf_ own s -> h' <> h -> h' < length (s_ts s) -> frame s (clear_domains s h) h'.
Proof.
  intros W N H'. unfold clear_domains, new_map. cbn zeta. eapply frame_trans; [|apply set_ts_frame; assumption].
  split; [|split; auto; intros; apply same_file_refl]. split; auto. unfold h_domains, the_map. cbn [s_maps].
  change (the_ts {| s_ts := _; s_maps := _; s_trs := _; s_files := _; s_global := _ |} h') with (the_ts s h').
  rewrite nth_app_old by (apply (w_maps s W), H'). reflexivity.
Qed.
Lemma apart_frame s o h : wf_ own s -> known s o -> elsewhere h s o ->
  match o with OBind h' _ _ _ | ORemove h' _ => t_map (the_ts s h) <> t_map (the_ts s h') | _ => True end ->
  h < length (s_ts s) -> frame s (do_op s o) h.
Proof.
  intros W K (Nd & No) Ap H. assert (R : frame s s h) by (split; [apply same_handle_refl, H|apply keeps_refl]).
  destruct o; cbn [TransModel.do_op known on_handle direct] in *; try (exfalso; apply Nd; exact I);
    try (assert (Q : h <> h0) by congruence).
  - change (frame s (fresh s {| t_locale := d; t_domain := default_domain; t_map := length (s_maps s); t_source := default_source |} []) h).
    split; [apply fresh_old; assumption|apply fresh_keeps].
  - apply clone_frame; assumption.
  - split; [split; auto|split; auto; intros; apply same_file_refl].
  - apply D_frame; assumption.
  - apply L_frame; assumption.
  - apply with_frame; assumption.
  - apply set_ts_frame; assumption.
  - apply set_ts_frame; assumption.
  - apply set_ts_frame; assumption.
  - apply bind_apart; assumption.
  - apply remove_apart; assumption.
  - apply clear_other; assumption.
  - exact R.
  - apply xn_frame, H.
  - split; [split; auto|]. split; auto; cbn [new_translation new_tr snd].
    + intros t Ht. unfold the_tr. cbn [s_trs]. apply nth_app_old, Ht.
    + cbn [s_trs]. rewrite app_length. lia.
    + intros. apply same_file_refl.
  - split; [split; auto|]. split; auto; cbn [new_f snd].
    + intros a Ha. unfold the_file. cbn [s_files]. rewrite nth_app_old by exact Ha. apply same_file_refl.
    + cbn [s_files]. rewrite app_length. lia.
Qed.
End Facts.
