(** Facts about copies of translations: one step. *)
From Coq Require Import Lia.
From Verif Require Import GoStr GoStrFacts GoMap GoMapFacts FileModel FileFacts PoModel MoModel TransModel TransSpec TransFacts TransFrameFacts TransViewFacts
  TransLoadFacts ZeroModel ZeroSpec ZeroFacts ShareModel.
Import ListNotations.

Section Facts.
Context {A : Type}.
Variable fmt : bytes -> list A -> bytes.
Variable norm : bytes -> bytes.
Notation state := (@state A).
Notation wstate := (@wstate A).
Notation do_op := (do_op fmt norm).
Notation wstep := (wstep fmt norm).
Implicit Types (s : state) (w : wstate) (t : nat).

Lemma target_into (o : @op A) : target o = into o.
Proof. destruct o; reflexivity. Qed.
Lemma nth_drop {V} n k (l : list V) d : nth k (skipn n l) d = nth (n + k) l d.
Proof. revert l; induction n as [|n IH]; intros [|x l]; cbn [skipn Nat.add nth]; auto. destruct k; reflexivity. Qed.
Lemma nth_map_look s l t : nth t (map (look s) l) no_tr = look s (nth t l None).
Proof. change no_tr with (look s None) at 1. apply map_nth. Qed.
Lemma flat_tr w t : the_tr (flat w) t = look (w_state w) (cell w t).
Proof. unfold the_tr, flat, put_trs. cbn [s_trs]. apply nth_map_look. Qed.
Lemma flat_len w : length (s_trs (flat w)) = length (w_cells w).
Proof. unfold flat, put_trs. cbn [s_trs]. apply map_length. Qed.
(** what holds between the statements *)
Record winv w : Prop := {
  wi_len : length (s_trs (w_state w)) = length (w_cells w);
  wi_cell : forall t m, cell w t = Some m -> m < length (w_cells w);
  wi_wf : wf (flat w) }.
Lemma wf_any (s : state) : wf s -> wf_ false s.
Proof. intros []. split; auto; discriminate. Qed.
Lemma wf_up (s s' : state) : wf s -> wf_ false s' -> s_ts s' = s_ts s -> wf s'.
Proof.
  intros [V1 V2 V3 V4 V5 V6 V7] [W1 W2 W3 W4 W5 W6 W7] E. split; auto. unfold the_ts in *. intros _ h h'. rewrite E. apply V2. reflexivity.
Qed.
Lemma wf_retr (s s' : state) trs : wf s' -> s = put_trs s' trs -> length trs = length (s_trs s') ->
  (forall t, exists t', the_tr s t = the_tr s' t') -> wf s.
Proof.
  intros [W1 W2 W3 W4 W5 W6 W7] -> L H. split; auto; try (cbn [put_trs s_trs]; rewrite L; assumption).
  intros t l x. destruct (H t) as [t' E]. intros G. rewrite E in G. exact (W6 t' l x G).
Qed.
Lemma same_known (s : state) trs x : tor_known (put_trs s trs) x <-> tor_known s x.
Proof. destruct x; reflexivity. Qed.

(** ** What a stored call leaves *)
Section Store.
Variables (w : wstate) (o : @op A) (s' : state).
Hypothesis I : winv w.
Hypothesis Len : length (w_cells w) <= length (s_trs s').
Hypothesis Same : forall t, t < length (w_cells w) -> target o <> Some t -> the_tr s' t = the_tr (flat w) t.
Let w' := store w o s'.
Lemma store_cells_len : length (w_cells w') = length (s_trs s').
Proof. unfold w', store. cbn [w_cells]. rewrite app_length, map_length, seq_length. lia. Qed.
Lemma store_trs_len : length (s_trs (w_state w')) = length (s_trs s').
Proof.
  unfold w', store. cbn [w_state put_trs s_trs]. rewrite app_length, skipn_length.
  pose proof (wi_len w I). destruct (target o) as [t|]; [destruct (cell w t)|]; rewrite ?upd_length; lia.
Qed.
Lemma store_cell t : cell w' t = if t <? length (w_cells w) then cell w t else if t <? length (s_trs s') then Some t else None.
Proof.
  unfold cell, w', store. cbn [w_cells]. destruct (Nat.ltb_spec t (length (w_cells w))) as [L|L]; [apply app_nth1, L|].
  rewrite app_nth2 by exact L. destruct (Nat.ltb_spec t (length (s_trs s'))) as [L'|L'].
  - rewrite nth_indep with (d' := Some 0) by (rewrite map_length, seq_length; lia). rewrite map_nth, seq_nth by lia. f_equal. lia.
  - apply nth_overflow. rewrite map_length, seq_length. lia.
Qed.
Lemma store_old m : m < length (w_cells w) ->
  the_tr (w_state w') m = match target o with
                          | Some t => if match cell w t with Some m' => m' =? m | None => false end then the_tr s' t else the_tr (w_state w) m
                          | None => the_tr (w_state w) m
                          end.
Proof.
  intros H. pose proof (wi_len w I) as L. unfold the_tr at 1, w', store. cbn [w_state put_trs s_trs].
  rewrite app_nth1 by (destruct (target o) as [t|]; [destruct (cell w t)|]; rewrite ?upd_length; lia).
  destruct (target o) as [t|]; [|reflexivity]. destruct (cell w t) as [m'|]; [|reflexivity].
  destruct (Nat.eqb_spec m' m) as [->|N]; [apply nth_upd_same; lia|apply nth_upd_other; congruence].
Qed.
Lemma store_new m : length (w_cells w) <= m -> the_tr (w_state w') m = the_tr s' m.
Proof.
  intros H. pose proof (wi_len w I) as L. unfold the_tr at 1, w', store. cbn [w_state put_trs s_trs].
  assert (L' : length (match target o with
             | Some t => match cell w t with Some m => upd m (the_tr s' t) (s_trs (w_state w)) | None => s_trs (w_state w) end
             | None => s_trs (w_state w)
             end) = length (w_cells w)) by (destruct (target o) as [t|]; [destruct (cell w t)|]; rewrite ?upd_length; lia).
  rewrite app_nth2 by lia. rewrite L'. unfold the_tr. rewrite nth_drop. f_equal. lia.
Qed.
(** the translation [t] is seen through the target's map *)
Definition through t : Prop := exists t0 m, target o = Some t0 /\ cell w t0 = Some m /\ cell w t = Some m.
Lemma store_through t t0 : t < length (w_cells w) -> target o = Some t0 -> cell w t0 = cell w t -> cell w t <> None -> the_tr (flat w') t = the_tr s' t0.
Proof.
  intros H T E N. rewrite flat_tr, store_cell. destruct (Nat.ltb_spec t (length (w_cells w))); [|lia].
  destruct (cell w t) as [m|] eqn:C; [|contradiction]. cbn [look]. rewrite store_old by (eapply wi_cell; eassumption).
  rewrite T, E, Nat.eqb_refl. reflexivity.
Qed.
Lemma store_apart t : t < length (w_cells w) -> (forall t0, target o = Some t0 -> cell w t0 <> cell w t \/ cell w t = None) -> the_tr (flat w') t = the_tr (flat w) t.
Proof.
  intros H N. rewrite !flat_tr, store_cell. destruct (Nat.ltb_spec t (length (w_cells w))); [|lia].
  destruct (cell w t) as [m|] eqn:C; [|reflexivity]. cbn [look]. rewrite store_old by (eapply wi_cell; eassumption).
  destruct (target o) as [t0|]; [|reflexivity]. destruct (N t0 eq_refl) as [Q|Q]; [|discriminate]. destruct (cell w t0) as [m'|]; [|reflexivity].
  destruct (Nat.eqb_spec m' m); [congruence|reflexivity].
Qed.
Lemma store_made t : length (w_cells w) <= t < length (s_trs s') -> the_tr (flat w') t = the_tr s' t.
Proof.
  intros [H1 H2]. rewrite flat_tr, store_cell. destruct (Nat.ltb_spec t (length (w_cells w))); [lia|].
  destruct (Nat.ltb_spec t (length (s_trs s'))); [|lia]. cbn [look]. apply store_new, H1.
Qed.
Lemma store_some t : exists t', the_tr (flat w') t = the_tr s' t'.
Proof.
  destruct (Nat.lt_ge_cases t (length (w_cells w))) as [L|L].
  - assert (Ot : target o = None \/ exists t0, target o = Some t0) by (case (target o); eauto). destruct Ot as [T|[t0 T]]; [|].
    2: { destruct (cell w t) as [m|] eqn:C.
      * destruct (cell w t0) as [m0|] eqn:C0.
        -- destruct (Nat.eq_dec m0 m) as [->|N].
           ++ exists t0. apply store_through; auto; congruence.
           ++ exists t. rewrite store_apart; auto.
              ** symmetry. apply Same; auto. rewrite T. congruence.
              ** intros x E. rewrite T in E. injection E as <-. left. congruence.
        -- exists t. rewrite store_apart; auto; [symmetry; apply Same; auto; rewrite T; congruence|]. intros x E. rewrite T in E. injection E as <-. left. congruence.
      * exists (length (s_trs s')). rewrite flat_tr, store_cell. destruct (Nat.ltb_spec t (length (w_cells w))); [|lia]. rewrite C. cbn [look].
        unfold the_tr. rewrite nth_overflow; [reflexivity|lia]. }
    { exists t. rewrite store_apart; auto; [symmetry; apply Same; auto; congruence|congruence]. }
  - destruct (Nat.lt_ge_cases t (length (s_trs s'))) as [L'|L']; [exists t; apply store_made; auto|].
    exists t. unfold the_tr. rewrite !nth_overflow; [reflexivity|exact L'|]. rewrite flat_len, store_cells_len. exact L'.
Qed.
Lemma store_inv : wf s' -> winv w'.
Proof.
  intros W. split.
  - rewrite store_trs_len, store_cells_len. reflexivity.
  - intros t m. rewrite store_cell, store_cells_len. destruct (_ <? _); [intros E; apply (wi_cell w I) in E; lia|].
    destruct (Nat.ltb_spec t (length (s_trs s'))); [intros [= <-]; assumption|discriminate].
  - apply (wf_retr _ s' (map (look (w_state w')) (w_cells w'))); [exact W|reflexivity| |exact store_some].
    rewrite map_length. apply store_cells_len.
Qed.
End Store.
End Facts.
