(** Facts about zero values and copies of handles. *)
From Coq Require Import Lia Permutation.
From Verif Require Import GoStr GoStrFacts GoMap GoMapFacts FileModel FileFacts PoModel MoModel TransModel TransSpec TransFacts TransFrameFacts ZeroModel ZeroSpec.
Import ListNotations.

Section Facts.
Context {A : Type}.
Variable fmt : bytes -> list A -> bytes.
Variable norm : bytes -> bytes.
Notation state := (@state A).
Implicit Types s : state.
Notation do_op := (do_op fmt norm).
Notation wfz := (wf_ false).

(** ** Handles and their maps through a call *)
Record shape s s' : Prop := {
  p_ts : length (s_ts s) <= length (s_ts s');
  p_maps : length (s_maps s') = length (s_maps s) + (length (s_ts s') - length (s_ts s));
  p_old : forall h, h < length (s_ts s) -> t_map (the_ts s' h) = t_map (the_ts s h);
  p_new : forall h, length (s_ts s) <= h < length (s_ts s') -> t_map (the_ts s' h) = length (s_maps s) + (h - length (s_ts s)) }.
Lemma shape_trans s1 s2 s3 : shape s1 s2 -> shape s2 s3 -> shape s1 s3.
Proof.
  intros [A1 B1 C1 D1] [A2 B2 C2 D2]. split; try lia.
  - intros h H. rewrite C2, C1 by lia. reflexivity.
  - intros h H. destruct (Nat.lt_ge_cases h (length (s_ts s2))) as [L|L]; [rewrite C2 by exact L; apply D1; lia|rewrite D2 by lia; lia].
Qed.
Lemma shape_same s s' : s_ts s' = s_ts s -> length (s_maps s') = length (s_maps s) -> shape s s'.
Proof. intros E M. split; rewrite ?E; try lia. intros h H. unfold the_ts. rewrite E. reflexivity. Qed.
Lemma shape_set s h r : t_map r = t_map (the_ts s h) -> shape s (set_ts s h r).
Proof.
  intros E. split; cbn [set_ts s_ts s_maps]; rewrite ?upd_length; try lia. intros x H. unfold the_ts in *. cbn [set_ts s_ts].
  destruct (Nat.eq_dec x h) as [->|N]; [rewrite nth_upd_same by exact H; exact E|rewrite nth_upd_other by exact N; reflexivity].
Qed.
Lemma shape_fresh s r g : t_map r = length (s_maps s) -> shape s (fresh s r g).
Proof.
  intros E. split; cbn [fresh s_ts s_maps]; rewrite ?app_length; cbn [length]; try lia.
  - intros h H. unfold the_ts. cbn [fresh s_ts]. rewrite nth_app_old by exact H. reflexivity.
  - intros h H. replace h with (length (s_ts s)) by lia. unfold the_ts. cbn [fresh s_ts]. rewrite nth_new. lia.
Qed.
Lemma shape_clone s h : shape s (snd (clone s h)).
Proof. rewrite clone_eq. apply shape_fresh. reflexivity. Qed.
Lemma shape_D s h d : shape s (snd (h_D s h d)).
Proof. unfold h_D. pose proof (shape_clone s h) as P. destruct (clone s h) as [r s1]. eapply shape_trans; [exact P|]. apply shape_set. reflexivity. Qed.
Lemma shape_L s h l d : shape s (snd (h_L norm s h l d)).
Proof. unfold h_L. pose proof (shape_clone s h) as P. destruct (clone s h) as [r s1]. eapply shape_trans; [exact P|]. apply shape_set. reflexivity. Qed.
Lemma shape_with s c d : shape s (snd (with_context norm s c d)).
Proof.
  unfold with_context, g_clone. pose proof (shape_clone s (s_global s)) as P. destruct (clone s (s_global s)) as [h1 s1]. cbn [snd] in P.
  set (p := match get_ctx_locale c with Some l => _ | None => _ end).
  assert (P2 : shape s (snd p)). { unfold p. destruct (get_ctx_locale c); [|exact P]. eapply shape_trans; [exact P|apply shape_L]. }
  destruct p as [h2 s2]. cbn [snd] in P2. destruct (get_ctx_domain c); [|exact P2]. eapply shape_trans; [exact P2|apply shape_D].
Qed.
Lemma shape_refl s : shape s s.
Proof. apply shape_same; reflexivity. Qed.
Lemma lang_ts s x : s_ts (snd (tor_lang s x)) = s_ts s /\ s_maps (snd (tor_lang s x)) = s_maps s /\ s_trs (snd (tor_lang s x)) = s_trs s
  /\ s_global (snd (tor_lang s x)) = s_global s.
Proof. destruct x as [|a|u]; cbn [tor_lang]; [auto| |auto]. destruct (lang _). cbn. auto. Qed.
Lemma load_ts s t cs : s_ts (with_files norm s t cs) = s_ts s /\ s_maps (with_files norm s t cs) = s_maps s.
Proof. split; reflexivity. Qed.
Lemma shape_op s o : known s o -> (forall h, o <> OClear h) -> shape s (do_op s o).
Proof.
  intros K N. destruct o; cbn [TransModel.do_op known] in *.
  - apply (shape_fresh s {| t_locale := d; t_domain := default_domain; t_map := length (s_maps s); t_source := default_source |} []). reflexivity.
  - apply shape_clone.
  - apply shape_same; reflexivity.
  - apply shape_D.
  - apply shape_L.
  - apply shape_with.
  - apply shape_set; reflexivity.
  - apply shape_set; reflexivity.
  - apply shape_set; reflexivity.
  - rewrite bind_fs_spec. cbn zeta. destruct (existsb okb _); apply shape_same; try reflexivity. cbn. apply upd_length.
  - unfold remove_domain. destruct domain; [apply shape_refl|]. destruct (negb _); [apply shape_refl|]. cbn [snd].
    set (s1 := set_map _ _ _). assert (P : shape s s1) by (apply shape_same; [reflexivity|cbn; apply upd_length]).
    destruct (beq _ _); [|exact P]. eapply shape_trans; [exact P|]. apply shape_set. reflexivity.
  - exfalso. apply (N h). reflexivity.
  - apply shape_refl.
  - unfold h_xn64, tor_xn. destruct (the_tor s h); [apply shape_refl| |apply shape_refl]. destruct (f_xn64 _ _ _ _ _ _ _). apply shape_same; reflexivity.
  - apply shape_same; reflexivity.
  - destruct (lang_ts s x) as (E1 & E2 & _). unfold add_or_replace. destruct (tor_lang s x) as [l s1]. cbn [snd] in *.
    destruct l; cbn [snd]; apply shape_same; cbn; congruence.
  - rewrite load_po_spec by exact K. destruct (read_po content); cbn [snd]; try apply shape_refl. apply shape_same; reflexivity.
  - rewrite load_mo_spec by exact K. destruct (read_mo content); cbn [snd]; try apply shape_refl. apply shape_same; reflexivity.
  - rewrite load_fs_spec by exact K. apply shape_same; reflexivity.
  - apply shape_same; reflexivity.
  - apply shape_same; reflexivity.
Qed.
Lemma clear_shape s h : h < length (s_ts s) ->
  length (s_ts (clear_domains s h)) = length (s_ts s) /\ length (s_maps (clear_domains s h)) = S (length (s_maps s))
  /\ t_map (the_ts (clear_domains s h) h) = length (s_maps s)
  /\ forall h', h' <> h -> t_map (the_ts (clear_domains s h) h') = t_map (the_ts s h').
Proof.
  intros H. unfold clear_domains, new_map, set_ts, the_ts. cbn. rewrite upd_length, app_length. cbn. repeat split; try lia.
  - rewrite nth_upd_same by exact H. reflexivity.
  - intros h' N. rewrite nth_upd_other by exact N. reflexivity.
Qed.

(** ** Maps and translations that stay empty *)
Lemma fresh_map s r g m : m < length (s_maps s) -> the_map (fresh s r g) m = the_map s m.
Proof. intros H. unfold the_map, fresh. cbn [s_maps]. apply nth_app_old, H. Qed.
Lemma clone_map s h m : m < length (s_maps s) -> the_map (snd (clone s h)) m = the_map s m /\ m < length (s_maps (snd (clone s h))).
Proof. intros H. rewrite clone_eq. cbn [snd]. split; [apply fresh_map, H|]. cbn. rewrite app_length. lia. Qed.
Lemma D_map s h d m : m < length (s_maps s) -> the_map (snd (h_D s h d)) m = the_map s m /\ m < length (s_maps (snd (h_D s h d))).
Proof. intros H. unfold h_D. pose proof (clone_map s h m H) as P. destruct (clone s h) as [r s1]. exact P. Qed.
Lemma L_map s h l d m : m < length (s_maps s) -> the_map (snd (h_L norm s h l d)) m = the_map s m /\ m < length (s_maps (snd (h_L norm s h l d))).
Proof. intros H. unfold h_L. pose proof (clone_map s h m H) as P. destruct (clone s h) as [r s1]. exact P. Qed.
Lemma with_map s c d m : m < length (s_maps s) -> the_map (snd (with_context norm s c d)) m = the_map s m.
Proof.
  intros H. unfold with_context, g_clone. pose proof (clone_map s (s_global s) m H) as [P L]. destruct (clone s (s_global s)) as [h1 s1]. cbn [snd] in *.
  set (p := match get_ctx_locale c with Some l => _ | None => _ end).
  assert (P2 : the_map (snd p) m = the_map s m /\ m < length (s_maps (snd p))).
  { unfold p. destruct (get_ctx_locale c); [|auto]. destruct (L_map s1 h1 b d m L) as [Q1 Q2]. split; [congruence|exact Q2]. }
  destruct p as [h2 s2]. cbn [snd] in P2. destruct P2 as [P2 L2]. destruct (get_ctx_domain c); [|exact P2]. destruct (D_map s2 h2 b m L2). congruence.
Qed.
Lemma empty_map s o m : known s o -> m < length (s_maps s) -> the_map s m = [] ->
  (forall h d wm wp, o = OBind h d wm wp -> t_map (the_ts s h) <> m) -> the_map (do_op s o) m = [].
Proof.
  intros K H E N. destruct o; cbn [TransModel.do_op known] in *.
  - rewrite <- E. exact (fresh_map s {| t_locale := d; t_domain := default_domain; t_map := length (s_maps s); t_source := default_source |} [] m H).
  - destruct (clone_map s (s_global s) m H) as [P _]. unfold g_clone. congruence.
  - exact E.
  - destruct (D_map s h domain m H). congruence.
  - destruct (L_map s h lang d m H). congruence.
  - rewrite with_map by exact H. exact E.
  - exact E.
  - exact E.
  - exact E.
  - rewrite bind_fs_spec. cbn zeta. specialize (N h domain wm wp eq_refl). destruct (existsb okb _); [|exact E]. rewrite the_map_upd.
    destruct (Nat.eqb_spec m (t_map (the_ts s h))); [congruence|exact E].
  - unfold remove_domain. destruct domain; [exact E|]. destruct (has_domain s h _) eqn:D; cbn [negb]; [|exact E]. cbn [snd].
    assert (Nm : t_map (the_ts s h) <> m). { intros Q. unfold has_domain, h_domains in D. rewrite Q, E in D. discriminate. }
    assert (P : the_map (set_map s (t_map (the_ts s h)) (mdel (a :: domain) (the_map s (t_map (the_ts s h))))) m = []).
    { rewrite the_map_upd. destruct (Nat.eqb_spec m (t_map (the_ts s h))); [congruence|exact E]. }
    destruct (beq _ _); exact P.
  - unfold clear_domains, new_map, the_map. cbn. rewrite nth_app_old by exact H. exact E.
  - exact E.
  - unfold h_xn64, tor_xn. destruct (the_tor s h); [exact E| |exact E]. destruct (f_xn64 _ _ _ _ _ _ _). exact E.
  - exact E.
  - destruct (lang_ts s x) as (E1 & E2 & _). unfold add_or_replace. destruct (tor_lang s x) as [l s1]. cbn [snd] in *.
    destruct l; cbn [snd]; unfold the_map in *; cbn [set_tr s_maps]; rewrite E2; exact E.
  - rewrite load_po_spec by exact K. destruct (read_po content); exact E.
  - rewrite load_mo_spec by exact K. destruct (read_mo content); exact E.
  - rewrite load_fs_spec by exact K. exact E.
  - exact E.
  - exact E.
Qed.
Lemma clone_trs s h : s_trs (snd (clone s h)) = s_trs s. Proof. reflexivity. Qed.
Lemma with_trs s c d : s_trs (snd (with_context norm s c d)) = s_trs s.
Proof. unfold with_context. destruct (get_ctx_locale c), (get_ctx_domain c); reflexivity. Qed.
Definition into (o : @op A) : option nat :=
  match o with OAdd t _ | OLoadPo t _ | OLoadMo t _ | OLoadFS t _ _ => Some t | _ => None end.
Lemma same_tr s o t : known s o -> t < length (s_trs s) -> into o <> Some t -> the_tr (do_op s o) t = the_tr s t /\ t < length (s_trs (do_op s o)).
Proof.
  intros K H N. destruct o; cbn [TransModel.do_op known into] in *; try (split; [reflexivity|exact H]).
  - unfold the_tr. rewrite with_trs. auto.
  - pose proof (bind_keeps norm s h domain wm wp) as [K1 K2 _ _]. split; [apply K1, H|lia].
  - unfold remove_domain. destruct domain; [auto|]. destruct (negb _); [auto|]. cbn [snd]. destruct (beq _ _); auto.
  - unfold h_xn64, tor_xn. destruct (the_tor s h); auto. destruct (f_xn64 _ _ _ _ _ _ _). auto.
  - unfold the_tr. cbn. rewrite nth_app_old, app_length by exact H. split; [reflexivity|lia].
  - destruct (lang_ts s x) as (_ & _ & E2 & _). unfold add_or_replace. destruct (tor_lang s x) as [l s1]. cbn [snd] in *.
    assert (t <> t0) by congruence. destruct l; cbn [snd]; unfold the_tr; cbn [set_tr s_trs]; rewrite ?upd_length, E2; [auto|].
    rewrite nth_upd_other by assumption. auto.
  - rewrite load_po_spec by exact K. destruct (read_po content); auto. cbn [snd]. rewrite with_files_old, with_files_trs by congruence. auto.
  - rewrite load_mo_spec by exact K. destruct (read_mo content); auto. cbn [snd]. rewrite with_files_old, with_files_trs by congruence. auto.
  - rewrite load_fs_spec by exact K. cbn [snd]. rewrite with_files_old, with_files_trs by congruence. auto.
Qed.

(** ** Calls that meet a nil map *)
(** they change nothing but files nobody has, or that answer as before *)
Record untouched s s' : Prop := {
  n_ts : s_ts s' = s_ts s; n_maps : s_maps s' = s_maps s; n_global : s_global s' = s_global s;
  n_keeps : keeps s s'; n_wf : wfz s -> wfz s' }.
Lemma untouched_refl s : untouched s s.
Proof. split; auto. apply keeps_refl. Qed.
Lemma untouched_trans s1 s2 s3 : untouched s1 s2 -> untouched s2 s3 -> untouched s1 s3.
Proof. intros [A1 A2 A3 A4 A5] [B1 B2 B3 B4 B5]. split; try congruence; auto. eapply keeps_trans; eassumption. Qed.
Lemma lang_untouched s x : untouched s (snd (tor_lang s x)).
Proof.
  destruct (lang_ts s x) as (E1 & E2 & E3 & E4). split; auto; [|apply wf_lang].
  destruct x as [|a|u]; [apply keeps_refl| |apply keeps_refl]. cbn [tor_lang]. pose proof (lang_file (the_file s a)) as L.
  destruct (lang (the_file s a)) as [l f]. cbn [snd] in *. subst f. split; auto; [|cbn; rewrite upd_length; lia].
  intros b Hb. unfold the_file at 2, set_file. cbn [s_files]. destruct (Nat.eq_dec b a) as [->|N].
  - rewrite nth_upd_same by exact Hb. apply same_init_header.
  - rewrite nth_upd_other by exact N. apply same_file_refl.
Qed.
Lemma new_f_untouched s f : untouched s (snd (new_f s f)).
Proof.
  split; auto; [|apply wf_new_f; exact norm]. split; auto; cbn [new_f snd].
  - intros a Ha. unfold the_file. cbn [s_files]. rewrite nth_app_old by exact Ha. apply same_file_refl.
  - cbn [s_files]. rewrite app_length. lia.
Qed.
Lemma add_untouched s x : untouched s (snd (nil_add s x)).
Proof. unfold nil_add. pose proof (lang_untouched s x) as U. destruct (tor_lang s x). exact U. Qed.
Lemma load_nil s f : let r := nil_add (snd (new_f s f)) (TFile (length (s_files s))) in
  untouched s (snd r) /\ (fst r = true <-> has_lang f).
Proof.
  cbn zeta. split; [eapply untouched_trans; [apply new_f_untouched|apply add_untouched]|].
  unfold nil_add, tor_lang, new_f. cbn [snd]. unfold the_file. cbn [s_files]. rewrite nth_new. unfold has_lang. destruct (lang f) as [l f'].
  cbn [fst]. destruct l; cbn; split; congruence.
Qed.
Lemma nil_po_is s c : untouched s (snd (nil_po s c)) /\ (fst (nil_po s c) = true <-> exists f, read_po c = PoOk f /\ has_lang f).
Proof.
  unfold nil_po. destruct (read_po c) as [f| | |].
  - destruct (load_nil s f) as [U E]. split; [exact U|]. cbn [new_f]. rewrite E. split; [eauto|]. intros (g & [= <-] & H). exact H.
  - split; [apply untouched_refl|]. split; [discriminate|]. intros (g & H & _). discriminate H.
  - split; [apply untouched_refl|]. split; [discriminate|]. intros (g & H & _). discriminate H.
  - split; [apply untouched_refl|]. split; [discriminate|]. intros (g & H & _). discriminate H.
Qed.
Lemma nil_mo_is s c : untouched s (snd (nil_mo s c)) /\ (fst (nil_mo s c) = true <-> exists f, read_mo c = MoOk f /\ has_lang f).
Proof.
  unfold nil_mo. destruct (read_mo c) as [f| |].
  - destruct (load_nil s f) as [U E]. split; [exact U|]. cbn [new_f]. rewrite E. split; [eauto|]. intros (g & [= <-] & H). exact H.
  - split; [apply untouched_refl|]. split; [discriminate|]. intros (g & H & _). discriminate H.
  - split; [apply untouched_refl|]. split; [discriminate|]. intros (g & H & _). discriminate H.
Qed.
Lemma nil_file_is s x : untouched s (snd (nil_file s x)) /\ (fst (nil_file s x) = true <-> exists f, In f (cat_of x) /\ has_lang f).
Proof.
  unfold nil_file, cat_of, gives. destruct (ff_name x) as [n|]; [|split; [apply untouched_refl|split; [discriminate|intros (f & [] & _)]]].
  destruct (ff_content x) as [c|]; [|split; [apply untouched_refl|split; [discriminate|intros (f & [] & _)]]]. unfold ext_po, ext_mo.
  destruct (has_suffix (B ".po") n); [|destruct (has_suffix (B ".mo") n)].
  - destruct (nil_po_is s c) as [U E]. split; [exact U|]. rewrite E. destruct (read_po c) as [f| | |].
    + split; [intros (g & [= <-] & H); exists f; split; [left; reflexivity|exact H]|intros (g & [->|[]] & H); eauto].
    + split; [intros (g & [=] & _)|intros (g & [] & _)].
    + split; [intros (g & [=] & _)|intros (g & [] & _)].
    + split; [intros (g & [=] & _)|intros (g & [] & _)].
  - destruct (nil_mo_is s c) as [U E]. split; [exact U|]. rewrite E. destruct (read_mo c) as [f| |].
    + split; [intros (g & [= <-] & H); exists f; split; [left; reflexivity|exact H]|intros (g & [->|[]] & H); eauto].
    + split; [intros (g & [=] & _)|intros (g & [] & _)].
    + split; [intros (g & [=] & _)|intros (g & [] & _)].
  - split; [apply untouched_refl|split; [discriminate|intros (f & [] & _)]].
Qed.
Lemma nil_walk_is ext w : forall s, untouched s (snd (nil_walk ext s w)) /\ (fst (nil_walk ext s w) = true <-> exists f, In f (catalogs ext w) /\ has_lang f).
Proof.
  induction w as [|[|dir name o] w IH]; intros s; cbn [nil_walk].
  - split; [apply untouched_refl|split; [discriminate|intros (f & [] & _)]].
  - split; [apply untouched_refl|split; [discriminate|intros (f & [] & _)]].
  - unfold catalogs in *. cbn [hits]. destruct dir; cbn [negb andb]; [apply IH|]. destruct (has_suffix ext name).
    + destruct o as [x|]; [|apply IH]. cbn [flat_map]. fold (cat_of x). destruct (nil_file_is s x) as [U E].
      destruct (nil_file s x) as [p s1]. cbn [fst snd] in *. destruct p.
      * cbn [fst snd]. split; [exact U|]. split; [|reflexivity]. intros _. destruct (proj1 E eq_refl) as (f & I & H). exists f. split; [apply in_or_app; auto|exact H].
      * destruct (IH s1) as [U1 E1]. split; [eapply untouched_trans; eassumption|]. rewrite E1. split.
        -- intros (f & I & H). exists f. split; [apply in_or_app; auto|exact H].
        -- intros (f & I & H). apply in_app_or in I as [I|I]; [|eauto]. exfalso. assert (false = true); [|discriminate]. apply E. eauto.
    + destruct o; apply IH.
Qed.
Lemma nil_fs_is s wm wp : untouched s (snd (nil_fs s wm wp))
  /\ (fst (nil_fs s wm wp) = true <-> exists f, In f (catalogs (B ".mo") wm ++ catalogs (B ".po") wp) /\ has_lang f).
Proof.
  unfold nil_fs. destruct (nil_walk_is ext_mo wm s) as [U E]. destruct (nil_walk ext_mo s wm) as [p s1]. cbn [fst snd] in *. destruct p.
  - split; [exact U|]. split; [|reflexivity]. intros _. destruct (proj1 E eq_refl) as (f & I & H). exists f. split; [apply in_or_app; auto|exact H].
  - destruct (nil_walk_is ext_po wp s1) as [U1 E1]. split; [eapply untouched_trans; eassumption|]. rewrite E1. split.
    + intros (f & I & H). exists f. split; [apply in_or_app; auto|exact H].
    + intros (f & I & H). apply in_app_or in I as [I|I]; [|eauto]. exfalso. assert (false = true); [|discriminate]. apply E. eauto.
Qed.
Lemma nil_bind_is s d wm wp : untouched s (snd (nil_bind norm s d wm wp))
  /\ (fst (nil_bind norm s d wm wp) = true <-> some_loaded (B ".mo") wm \/ some_loaded (B ".po") wp).
Proof.
  unfold nil_bind. destruct (new_translation s d) as [t s1] eqn:E.
  assert (Et : t = length (s_trs s)) by (unfold new_translation, new_tr in E; congruence). subst t.
  assert (E1 : s1 = snd (new_translation s d)) by (rewrite E; reflexivity).
  assert (L : length (s_trs s) < length (s_trs s1)) by (rewrite E1; cbn; rewrite app_length; cbn; lia).
  rewrite load_fs_spec by exact L. cbn [fst snd]. split; [|apply some_loaded_iff]. subst s1. split; try reflexivity.
  - split.
    + intros x Hx. rewrite with_files_old by lia. unfold the_tr, new_translation, new_tr. cbn [snd s_trs]. apply nth_app_old, Hx.
    + rewrite with_files_trs. lia.
    + intros a Ha. rewrite with_files_files; [apply same_file_refl|exact Ha].
    + cbn. rewrite app_length. lia.
  - intros W. apply wf_with_files; [apply (wf_new_tr norm), W|exact L].
Qed.

(** ** One call *)
Notation zstate := (@zstate A).
Notation zop := (@zop A).
Notation zstep := (zstep fmt norm).
Implicit Types (z : zstate) (o : zop).
Lemma memn_in n l : memn n l = true <-> In n l.
Proof. unfold memn. rewrite existsb_exists. split; [intros (x & I & E); apply Nat.eqb_eq in E; congruence|intros I; exists n; rewrite Nat.eqb_refl; auto]. Qed.
Lemma memn_out n l : memn n l = false <-> ~ In n l.
Proof. rewrite <- memn_in. destruct (memn n l); split; congruence. Qed.
(** the call assigns to a nil map *)
Definition meets z o : bool :=
  match o with
  | ZCall (OBind h _ _ _) => memn (t_map (the_ts (z_state z) h)) (z_maps z)
  | ZCall (OAdd t _) | ZCall (OLoadPo t _) | ZCall (OLoadMo t _) | ZCall (OLoadFS t _ _) => memn t (z_trs z)
  | _ => false
  end.
Lemma step_meets z o : meets z o = true -> untouched (z_state z) (z_state (snd (zstep z o)))
  /\ z_maps (snd (zstep z o)) = z_maps z /\ z_trs (snd (zstep z o)) = z_trs z.
Proof.
  destruct o as [[]| | | |]; cbn [meets]; try discriminate; intros E; cbn [ZeroModel.zstep]; cbv zeta; rewrite E; cbn [snd z_state z_maps z_trs];
    (split; [|auto]).
  - apply nil_bind_is.
  - apply add_untouched.
  - apply nil_po_is.
  - apply nil_mo_is.
  - apply nil_fs_is.
Qed.
Lemma step_call z (o : @op A) : meets z (ZCall o) = false ->
  zstep z (ZCall o) = (false, {| z_state := do_op (z_state z) o; z_maps := z_maps z; z_trs := z_trs z |}).
Proof. destruct o; cbn [meets]; intros E; cbn [ZeroModel.zstep]; cbv zeta; rewrite ?E; reflexivity. Qed.
(** what holds between the calls *)
Record zwf z : Prop := {
  zw_wf : wfz (z_state z);
  zw_maps : forall m, In m (z_maps z) -> m < length (s_maps (z_state z)) /\ the_map (z_state z) m = [];
  zw_trs : forall t, In t (z_trs z) -> t < length (s_trs (z_state z)) /\ tr_langs (the_tr (z_state z) t) = [] }.
Lemma copy_wf s r : wfz s -> t_map r < length (s_maps s) -> wfz (snd (new_ts s r)).
Proof.
  intros [W1 W2 W3 W4 W5 W6 W7] H. unfold new_ts. cbn [snd]. split; auto; cbn [s_ts s_maps s_global]; rewrite ?app_length; cbn [length]; try discriminate; [|lia].
  intros h Hh. unfold the_ts. cbn [s_ts]. destruct (Nat.eq_dec h (length (s_ts s))) as [->|N]; [rewrite nth_new; exact H|rewrite nth_app_old by lia; apply W1; lia].
Qed.
Lemma assign_wf s h r : wfz s -> t_map r < length (s_maps s) -> wfz (set_ts s h r).
Proof.
  intros [W1 W2 W3 W4 W5 W6 W7] H. split; auto; unfold set_ts; cbn [s_ts s_maps s_global]; rewrite ?upd_length; try discriminate; auto.
  intros x Hx. unfold the_ts. cbn [s_ts]. destruct (Nat.eq_dec x h) as [->|N]; [rewrite nth_upd_same by exact Hx; exact H|rewrite nth_upd_other by exact N; apply W1, Hx].
Qed.
Lemma meets_empty s (o : @op A) m : known s o -> wfz s -> m < length (s_maps s) -> m < length (s_maps (do_op s o)).
Proof.
  intros K W H. destruct o as [| | | | | | | | | | |h| | | | | | | | |] eqn:E; rewrite <- E in *; try (pose proof (shape_op s o K ltac:(rewrite E; discriminate)) as P; pose proof (p_maps _ _ P); lia).
  subst o. cbn [known] in K. destruct (clear_shape s h K) as (_ & L & _). cbn [TransModel.do_op]. lia.
Qed.
Lemma zwf_step z o : zwf z -> zknown z o -> zwf (snd (zstep z o)).
Proof.
  intros [W M T] K. destruct (meets z o) eqn:E.
  { destruct (step_meets z o E) as ([U1 U2 U3 [K1 K2 _ _] U5] & E1 & E2). split; rewrite ?E1, ?E2; auto.
    - intros m I. unfold the_map. rewrite U2. apply M, I.
    - intros t I. destruct (T t I). rewrite K1 by assumption. split; [lia|assumption]. }
  destruct o as [o| |h|h src|].
  - rewrite step_call by exact E. cbn [snd]. cbn [zknown] in K. split; cbn [z_state z_maps z_trs]; [apply wf_step; assumption| |].
    + intros m I. destruct (M m I) as [L Q]. split; [apply meets_empty; assumption|]. apply empty_map; auto.
      intros h d wm wp -> C. cbn [meets] in E. rewrite C in E. apply memn_out in E. contradiction.
    + intros t I. destruct (T t I) as [L Q]. destruct (same_tr _ o t K L) as [E1 E2]; [|rewrite E1; auto].
      intros C. destruct o; cbn [into] in C; try discriminate C; injection C as ->; cbn [meets] in E; apply memn_out in E; contradiction.
  - cbn [ZeroModel.zstep new_map snd]. split; cbn [z_state z_maps z_trs].
    + change (wfz (fresh (z_state z) {| t_locale := []; t_domain := []; t_map := length (s_maps (z_state z)); t_source := [] |} [])).
      apply wf_fresh; auto; [constructor|discriminate].
    + cbn [new_ts snd s_maps]. rewrite app_length. cbn [length]. intros m [<-|I].
      * split; [lia|]. unfold the_map. cbn [s_maps]. apply nth_new.
      * destruct (M m I) as [L Q]. split; [lia|]. unfold the_map in *. cbn [s_maps]. rewrite nth_app_old by exact L. exact Q.
    + exact T.
  - cbn [ZeroModel.zstep snd]. split; cbn [z_state z_maps z_trs]; auto. apply copy_wf; [exact W|]. apply (w_maps _ W), K.
  - cbn [ZeroModel.zstep snd]. split; cbn [z_state z_maps z_trs]; auto. apply assign_wf; [exact W|]. apply (w_maps _ W), K.
  - cbn [ZeroModel.zstep new_translation new_tr snd]. split; cbn [z_state z_maps z_trs]; auto.
    + exact (wf_new_tr norm (z_state z) [] W).
    + cbn [s_trs]. rewrite app_length. cbn [length]. intros t [<-|I].
      * split; [lia|]. unfold the_tr. cbn [s_trs]. rewrite nth_new. reflexivity.
      * destruct (T t I) as [L Q]. split; [lia|]. unfold the_tr in *. cbn [s_trs]. rewrite nth_app_old by exact L. exact Q.
Qed.
(** handles, their maps and the nil maps through a call *)
Definition kind z o z' : Prop :=
  let s := z_state z in let s' := z_state z' in
  match o with
  | ZCopy src => length (s_ts s') = S (length (s_ts s)) /\ length (s_maps s') = length (s_maps s)
      /\ (forall h, h < length (s_ts s) -> t_map (the_ts s' h) = t_map (the_ts s h)) /\ t_map (the_ts s' (length (s_ts s))) = t_map (the_ts s src)
      /\ z_maps z' = z_maps z
  | ZAssign h src => length (s_ts s') = length (s_ts s) /\ length (s_maps s') = length (s_maps s)
      /\ t_map (the_ts s' h) = t_map (the_ts s src) /\ (forall h', h' <> h -> t_map (the_ts s' h') = t_map (the_ts s h'))
      /\ z_maps z' = z_maps z
  | ZCall (OClear h) => length (s_ts s') = length (s_ts s) /\ length (s_maps s') = S (length (s_maps s))
      /\ t_map (the_ts s' h) = length (s_maps s) /\ (forall h', h' <> h -> t_map (the_ts s' h') = t_map (the_ts s h'))
      /\ z_maps z' = z_maps z
  | ZZero => shape s s' /\ length (s_ts s') = S (length (s_ts s)) /\ z_maps z' = length (s_maps s) :: z_maps z
  | _ => shape s s' /\ z_maps z' = z_maps z
  end.
Lemma kind_step z o : zknown z o -> kind z o (snd (zstep z o)).
Proof.
  intros K. destruct (meets z o) eqn:E.
  { destruct (step_meets z o E) as ([U1 U2 _ _ _] & E1 & _).
    assert (P : shape (z_state z) (z_state (snd (zstep z o))) /\ z_maps (snd (zstep z o)) = z_maps z) by (split; [apply shape_same; congruence|exact E1]).
    destruct o as [[]| | | |]; try discriminate E; exact P. }
  destruct o as [o| |h|h src|].
  - rewrite step_call by exact E. cbn [snd]. cbn [zknown] in K.
    destruct o; unfold kind; cbn [z_state z_maps]; try (split; [apply shape_op; [exact K|discriminate]|reflexivity]).
    destruct (clear_shape (z_state z) h K) as (A1 & A2 & A3 & A4). cbn [TransModel.do_op]. auto.
  - unfold kind. cbn [ZeroModel.zstep new_map snd z_state z_maps]. split; [|split; [cbn; rewrite app_length; cbn; lia|reflexivity]].
    apply (shape_fresh (z_state z) {| t_locale := []; t_domain := []; t_map := length (s_maps (z_state z)); t_source := [] |} []). reflexivity.
  - unfold kind. cbn [ZeroModel.zstep snd z_state z_maps]. cbn [new_ts snd s_ts s_maps]. rewrite app_length. cbn [length].
    split; [lia|]. split; [reflexivity|]. unfold the_ts. cbn [s_ts]. split; [intros x H; rewrite nth_app_old by exact H; reflexivity|]. rewrite nth_new. auto.
  - unfold kind. cbn [ZeroModel.zstep snd z_state z_maps]. cbn [set_ts s_ts s_maps]. rewrite upd_length. destruct K as [K1 K2].
    split; [reflexivity|]. split; [reflexivity|]. unfold the_ts. cbn [s_ts set_ts]. split; [rewrite nth_upd_same by exact K1; reflexivity|].
    split; [|reflexivity]. intros x N. rewrite nth_upd_other by exact N. reflexivity.
  - unfold kind. cbn [ZeroModel.zstep new_translation new_tr snd z_state z_maps]. split; [apply shape_same; reflexivity|reflexivity].
Qed.
End Facts.
