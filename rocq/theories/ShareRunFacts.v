(** Facts about copies of translations: histories. *)
From Coq Require Import Lia.
From Verif Require Import GoStr GoStrFacts GoMap GoMapFacts FileModel FileFacts PoModel MoModel TransModel TransSpec TransFacts TransFrameFacts TransViewFacts
  TransLoadFacts ZeroModel ZeroSpec ZeroFacts ShareModel ShareSpec ShareFacts.
Import ListNotations.

Section Facts.
Context {A : Type}.
Variable fmt : bytes -> list A -> bytes.
Variable norm : bytes -> bytes.
Variable d0 : bytes.
Notation state := (@state A).
Notation wstate := (@wstate A).
Notation wop := (@wop A).
Notation do_op := (do_op fmt norm).
Notation wstep := (wstep fmt norm).
Notation wrun := (wrun fmt norm d0).
Notation seen := (seen fmt norm d0).
Notation many := (many fmt norm d0).
Notation legal := (legal fmt norm d0).
Notation langs_of := (langs_of fmt norm d0).
Notation bare := (bare fmt norm d0).
Implicit Types (s : state) (w : wstate) (t : nat) (os : list wop) (x : wop).

(** ** One step *)
Definition call w (o : @op A) : bool * state :=
  match target o with
  | Some t => match cell w t with Some _ => (false, do_op (flat w) o) | None => nil_call (flat w) o end
  | None => (false, do_op (flat w) o)
  end.
Lemma step_is w o : wstep w (WCall o) = (fst (call w o), store w o (snd (call w o))).
Proof. unfold ShareModel.wstep, call. destruct (target o) as [t|]; [destruct (cell w t)|]; try reflexivity. destruct (nil_call (flat w) o). reflexivity. Qed.
Lemma nil_untouched s (o : @op A) : target o <> None -> untouched s (snd (nil_call s o)).
Proof.
  intros N. destruct o; try (exfalso; apply N; reflexivity); cbn [nil_call].
  - apply (add_untouched fmt norm). - apply (nil_po_is fmt norm). - apply (nil_mo_is fmt norm). - apply (nil_fs_is fmt norm).
Qed.
Lemma known_target s (o : @op A) t : known s o -> target o = Some t -> t < length (s_trs s).
Proof. destruct o; cbn [known target]; intros K E; try discriminate E; injection E as <-; [apply K|exact K|exact K|exact K]. Qed.
Lemma call_ok w o : winv w -> known (flat w) o ->
  length (w_cells w) <= length (s_trs (snd (call w o)))
  /\ (forall t, t < length (w_cells w) -> target o <> Some t -> the_tr (snd (call w o)) t = the_tr (flat w) t)
  /\ wf (snd (call w o)).
Proof.
  intros I K. rewrite <- (flat_len w).
  assert (D : length (s_trs (flat w)) <= length (s_trs (do_op (flat w) o))
    /\ (forall t, t < length (s_trs (flat w)) -> target o <> Some t -> the_tr (do_op (flat w) o) t = the_tr (flat w) t) /\ wf (do_op (flat w) o)).
  { split; [apply trs_grow; [apply I|exact K]|]. split; [|apply wf_step; [apply I|exact K]]. intros t H N. rewrite target_into in N.
    apply (same_tr fmt norm (flat w) o t K H N). }
  unfold call. destruct (target o) as [t|] eqn:T; [|exact D]. destruct (cell w t); [exact D|].
  destruct (nil_untouched (flat w) o ltac:(congruence)) as [U1 U2 U3 U4 U5]. split; [apply U4|]. split; [intros; apply U4; assumption|].
  apply (wf_up (flat w)); [apply I|apply U5, wf_any, I|exact U1].
Qed.
Lemma cell_known w t m : cell w t = Some m -> t < length (w_cells w).
Proof. unfold cell. intros E. destruct (Nat.lt_ge_cases t (length (w_cells w))) as [L|L]; [exact L|]. rewrite nth_overflow in E by exact L. discriminate E. Qed.
(** one more translation *)
Definition more w c : wstate := {| w_state := put_trs (w_state w) (s_trs (w_state w) ++ [no_tr]); w_cells := w_cells w ++ [c] |}.
Lemma more_cell w c t : cell (more w c) t = if t <? length (w_cells w) then cell w t else if t =? length (w_cells w) then c else None.
Proof.
  unfold cell, more. cbn [w_cells]. destruct (Nat.ltb_spec t (length (w_cells w))) as [L|L]; [apply app_nth1, L|].
  destruct (Nat.eqb_spec t (length (w_cells w))) as [->|N]; [apply nth_new|]. apply nth_overflow. rewrite app_length. cbn [length]. lia.
Qed.
Lemma more_look w c m : winv w -> m < length (w_cells w) -> the_tr (w_state (more w c)) m = the_tr (w_state w) m.
Proof. intros I H. unfold the_tr, more. cbn [w_state put_trs s_trs]. apply app_nth1. rewrite (wi_len w I). exact H. Qed.
Lemma more_old w c t : winv w -> t < length (w_cells w) -> the_tr (flat (more w c)) t = the_tr (flat w) t.
Proof.
  intros I H. rewrite !flat_tr, more_cell. destruct (Nat.ltb_spec t (length (w_cells w))); [|lia].
  destruct (cell w t) as [m|] eqn:C; [|reflexivity]. cbn [look]. apply more_look; [exact I|]. eapply wi_cell; eassumption.
Qed.
Lemma more_new w t : winv w -> the_tr (flat (more w (cell w t))) (length (w_cells w)) = the_tr (flat w) t.
Proof.
  intros I. rewrite !flat_tr, more_cell, Nat.ltb_irrefl, Nat.eqb_refl.
  destruct (cell w t) as [m|] eqn:C; [|reflexivity]. cbn [look]. apply more_look; [exact I|]. eapply wi_cell; eassumption.
Qed.
(** anything whose handles and files are those of [s'] and whose translations are among those of [s'] *)
Lemma wf_trs (s s' : state) trs : wf s' -> s = put_trs s' trs -> length (s_trs s') <= length trs ->
  (forall t, the_tr s t = no_tr \/ exists t', the_tr s t = the_tr s' t') -> wf s.
Proof.
  intros [W1 W2 W3 W4 W5 W6 W7] -> L H. split; auto; cbn [put_trs s_trs] in *.
  - intros m d t E. destruct (W3 m d t E). split; [assumption|lia].
  - lia.
  - intros t l x. destruct (H t) as [E|[t' E]]; intros G; rewrite E in G; [discriminate G|exact (W6 t' l x G)].
Qed.
Lemma more_inv w c : winv w -> c = None \/ (exists t, c = cell w t) -> winv (more w c).
Proof.
  intros I Hc. assert (Hm : forall m, c = Some m -> m < length (w_cells w)).
  { intros m ->. destruct Hc as [Hc|[t Hc]]; [discriminate Hc|]. symmetry in Hc. eapply wi_cell; eassumption. }
  split.
  - unfold more. cbn [w_state w_cells put_trs s_trs]. rewrite !app_length, (wi_len w I). reflexivity.
  - intros t m. rewrite more_cell. unfold more at 1. cbn [w_cells]. rewrite app_length. cbn [length].
    destruct (_ <? _); [intros E; apply (wi_cell w I) in E; lia|]. destruct (_ =? _); [intros E; apply Hm in E; lia|discriminate].
  - apply (wf_trs _ (flat w) (map (look (w_state (more w c))) (w_cells (more w c)))); [apply I|reflexivity| |].
    + rewrite flat_len, map_length. unfold more. cbn [w_cells]. rewrite app_length. lia.
    + intros t. destruct (Nat.lt_ge_cases t (length (w_cells w))) as [L|L]; [right; exists t; apply more_old; assumption|].
      destruct (Nat.eq_dec t (length (w_cells w))) as [->|N].
      * destruct Hc as [->|[t' ->]]; [left|right; exists t'; apply more_new, I]. rewrite flat_tr, more_cell, Nat.ltb_irrefl, Nat.eqb_refl. reflexivity.
      * left. rewrite flat_tr, more_cell. destruct (Nat.ltb_spec t (length (w_cells w))); [lia|]. destruct (Nat.eqb_spec t (length (w_cells w))); [lia|reflexivity].
Qed.
Definition assign w t src : wstate := {| w_state := w_state w; w_cells := upd t (cell w src) (w_cells w) |}.
Lemma assign_cell w t src t' : t < length (w_cells w) -> cell (assign w t src) t' = if t' =? t then cell w src else cell w t'.
Proof.
  intros H. unfold cell, assign. cbn [w_cells]. destruct (Nat.eqb_spec t' t) as [->|N]; [apply nth_upd_same, H|apply nth_upd_other, N].
Qed.
Lemma assign_tr w t src t' : t < length (w_cells w) -> the_tr (flat (assign w t src)) t' = the_tr (flat w) (if t' =? t then src else t').
Proof. intros H. rewrite !flat_tr, assign_cell by exact H. destruct (t' =? t); reflexivity. Qed.
Lemma assign_inv w t src : winv w -> t < length (w_cells w) -> winv (assign w t src).
Proof.
  intros I H. split.
  - unfold assign. cbn [w_state w_cells]. rewrite upd_length. apply I.
  - intros t' m. rewrite assign_cell by exact H. unfold assign at 1. cbn [w_cells]. rewrite upd_length. destruct (_ =? _); apply (wi_cell w I).
  - apply (wf_trs _ (flat w) (map (look (w_state (assign w t src))) (w_cells (assign w t src)))); [apply I|reflexivity| |].
    + rewrite flat_len, map_length. unfold assign. cbn [w_cells]. rewrite upd_length. lia.
    + intros t'. right. eexists. apply assign_tr, H.
Qed.
Lemma step_zero w : snd (wstep w WZero) = more w None. Proof. reflexivity. Qed.
Lemma step_copy w t : snd (wstep w (WCopy t)) = more w (cell w t). Proof. reflexivity. Qed.
Lemma step_assign w t src : snd (wstep w (WAssign t src)) = assign w t src. Proof. reflexivity. Qed.
Theorem winv_step w x : winv w -> wknown w x -> winv (snd (wstep w x)).
Proof.
  intros I K. destruct x as [o| |t|t src].
  - rewrite step_is. cbn [snd]. cbn [wknown] in K. destruct (call_ok w o I K) as (L & Sm & W). apply store_inv; assumption.
  - rewrite step_zero. apply more_inv; auto.
  - rewrite step_copy. apply more_inv; eauto.
  - rewrite step_assign. apply assign_inv; [exact I|apply K].
Qed.
Lemma winv_init : winv (winit d0 : wstate).
Proof.
  split; [reflexivity| |].
  - intros [|[|t]] m E; try discriminate E. injection E as <-. cbn. lia.
  - change (flat (winit d0)) with (init d0 : state). apply (wf_init norm).
Qed.

(** ** Histories *)
Lemma wrun_snoc os x : wrun (os ++ [x]) = snd (wstep (wrun os) x).
Proof. unfold ShareModel.wrun. rewrite fold_left_app. reflexivity. Qed.
Lemma legal_snoc os x : legal (os ++ [x]) <-> legal os /\ wknown (wrun os) x.
Proof.
  split.
  - intros P. split; [|apply (P os x []); reflexivity]. intros os1 y os2 ->. apply (P os1 y (os2 ++ [x])). rewrite <- app_assoc. reflexivity.
  - intros [P K] os1 y os2 E. destruct (@exists_last _ (y :: os2)) as (l & z & El); [discriminate|]. rewrite El, app_assoc in E.
    apply app_inj_tail in E as [-> ->]. destruct l as [|w l]; cbn [app] in El; injection El as <- E2.
    + rewrite app_nil_r in *. exact K.
    + apply (P os1 y l). reflexivity.
Qed.
Lemma legal_ind (P : list wop -> Prop) : P [] -> (forall os x, legal os -> wknown (wrun os) x -> P os -> P (os ++ [x])) -> forall os, legal os -> P os.
Proof.
  intros P0 PS os. induction os as [|x os IH] using rev_ind; intros H; [exact P0|]. apply legal_snoc in H as [H K]. apply PS; auto.
Qed.
Theorem winv_run os : legal os -> winv (wrun os).
Proof. revert os. apply legal_ind; [exact winv_init|]. intros os x P K W. rewrite wrun_snoc. apply winv_step; assumption. Qed.
Lemma many_cells os : many os = length (w_cells (wrun os)).
Proof. unfold ShareSpec.many, ShareSpec.seen. apply flat_len. Qed.
(** what a step does to the maps the translations have *)
Lemma step_cell os x t : legal os -> wknown (wrun os) x -> cell (wrun (os ++ [x])) t =
  match x with
  | WCall _ => if t <? many os then cell (wrun os) t else if t <? many (os ++ [x]) then Some t else None
  | WZero => cell (wrun os) t
  | WCopy src => if t =? many os then cell (wrun os) src else cell (wrun os) t
  | WAssign t' src => if t =? t' then cell (wrun os) src else cell (wrun os) t
  end.
Proof.
  intros P K. pose proof (winv_run os P) as I. rewrite !many_cells, wrun_snoc. destruct x as [o| |src|t' src].
  - rewrite step_is. cbn [snd]. cbn [wknown] in K. destruct (call_ok (wrun os) o I K) as (L & Sm & W). rewrite store_cells_len by assumption. apply store_cell; assumption.
  - rewrite step_zero, more_cell. destruct (Nat.ltb_spec t (length (w_cells (wrun os)))); [reflexivity|].
    destruct (_ =? _); unfold cell; rewrite nth_overflow by assumption; reflexivity.
  - rewrite step_copy, more_cell. destruct (Nat.ltb_spec t (length (w_cells (wrun os)))); destruct (Nat.eqb_spec t (length (w_cells (wrun os)))); try lia; try reflexivity.
    symmetry. apply nth_overflow. assumption.
  - rewrite step_assign. apply assign_cell, K.
Qed.
Lemma step_many os x : legal os -> wknown (wrun os) x ->
  match x with WCall _ => many os <= many (os ++ [x]) | WZero | WCopy _ => many (os ++ [x]) = S (many os) | WAssign _ _ => many (os ++ [x]) = many os end.
Proof.
  intros P K. pose proof (winv_run os P) as I. rewrite !many_cells, wrun_snoc. destruct x as [o| |src|t' src].
  - rewrite step_is. cbn [snd]. cbn [wknown] in K. destruct (call_ok (wrun os) o I K) as (L & Sm & W). rewrite store_cells_len by assumption. exact L.
  - rewrite step_zero. unfold more. cbn [w_cells]. rewrite app_length. cbn [length]. lia.
  - rewrite step_copy. unfold more. cbn [w_cells]. rewrite app_length. cbn [length]. lia.
  - rewrite step_assign. unfold assign. cbn [w_cells]. apply upd_length.
Qed.
Lemma many_grows os x : legal os -> wknown (wrun os) x -> many os <= many (os ++ [x]).
Proof. intros P K. pose proof (step_many os x P K). destruct x; lia. Qed.
Lemma langs_snoc os x t c : langs_of (os ++ [x]) t c <->
  (many os <= t < many (os ++ [x]) /\ x <> WZero /\ (forall src, x <> WCopy src) /\ c = t)
  \/ (exists src, x = WCopy src /\ t = many os /\ langs_of os src c)
  \/ (exists src, x = WAssign t src /\ t < many os /\ langs_of os src c)
  \/ (langs_of os t c /\ forall src, x <> WAssign t src).
Proof.
  split.
  - intros U. inversion U as [E|y o k L N1 N2 E|y k k' Us E|y k src k' L Us E|y o k k' Us N E]; [destruct os; discriminate E|..];
      apply app_inj_tail in E as [-> <-]; subst; eauto 12.
  - intros [(L & N1 & N2 & ->)|[(src & -> & -> & Us)|[(src & -> & L & Us)|(U & N)]]].
    + apply L_made; assumption. + apply L_copy, Us. + apply L_assign; assumption. + apply L_stay; assumption.
Qed.
Lemma bare_snoc os x t : bare (os ++ [x]) t <->
  (x = WZero /\ t = many os) \/ (exists src, x = WCopy src /\ t = many os /\ bare os src)
  \/ (exists src, x = WAssign t src /\ t < many os /\ bare os src) \/ (bare os t /\ forall src, x <> WAssign t src).
Proof.
  split.
  - intros U. inversion U as [y E|y k Us E|y k src L Us E|y o k Us N E]; apply app_inj_tail in E as [-> <-]; subst; eauto 12.
  - intros [[-> ->]|[(src & -> & -> & Us)|[(src & -> & L & Us)|(U & N)]]].
    + apply B_zero. + apply B_copy, Us. + apply B_assign; assumption. + apply B_stay; assumption.
Qed.
Lemma cell_many os t c : cell (wrun os) t = Some c -> t < many os.
Proof. rewrite many_cells. apply cell_known. Qed.
Theorem langs_iff os : legal os -> forall t c, langs_of os t c <-> cell (wrun os) t = Some c.
Proof.
  revert os. refine (legal_ind (fun os => forall t c, langs_of os t c <-> cell (wrun os) t = Some c) _ _).
  - intros t c. split.
    + intros U. inversion U as [E|y o k L N1 N2 E|y k k' Us E|y k src k' L Us E|y o k k' Us N E]; try (destruct y; discriminate E). reflexivity.
    + intros E. destruct t as [|[|t]]; try discriminate E. injection E as <-. apply L_start.
  - intros os x P K IH t c. rewrite langs_snoc, step_cell by assumption. pose proof (step_many os x P K) as M. destruct x as [o| |src|t' src].
    + split.
      * intros [(L & _ & _ & ->)|[(src & C & _)|[(src & C & _)|(U & _)]]]; try discriminate C.
        -- destruct (Nat.ltb_spec t (many os)); [lia|]. destruct (Nat.ltb_spec t (many (os ++ [WCall o]))); [reflexivity|lia].
        -- apply IH in U. pose proof (cell_many _ _ _ U). destruct (Nat.ltb_spec t (many os)); [exact U|lia].
      * destruct (Nat.ltb_spec t (many os)); [intros E; right; right; right; split; [apply IH, E|discriminate]|].
        destruct (Nat.ltb_spec t (many (os ++ [WCall o]))); [|discriminate]. intros [= <-]. left. repeat split; auto; discriminate.
    + split.
      * intros [(_ & C & _)|[(src & C & _)|[(src & C & _)|(U & _)]]]; try discriminate C; [contradiction|]. apply IH, U.
      * intros E. right. right. right. split; [apply IH, E|discriminate].
    + split.
      * intros [(_ & _ & C & _)|[(src' & C & -> & U)|[(src' & C & _)|(U & _)]]]; try discriminate C.
        -- destruct (C src eq_refl).
        -- injection C as ->. rewrite Nat.eqb_refl. apply IH, U.
        -- apply IH in U. pose proof (cell_many _ _ _ U). destruct (Nat.eqb_spec t (many os)); [lia|exact U].
      * destruct (Nat.eqb_spec t (many os)) as [->|N]; intros E; [right; left; exists src; split; [reflexivity|split; [reflexivity|apply IH, E]]|].
        right. right. right. split; [apply IH, E|discriminate].
    + destruct K as [K1 K2]. rewrite <- many_cells in K1, K2. split.
      * intros [(L & _)|[(src' & C & _)|[(src' & C & L & U)|(U & N)]]]; try discriminate C; [lia| |].
        -- injection C as -> ->. rewrite Nat.eqb_refl. apply IH, U.
        -- destruct (Nat.eqb_spec t t') as [->|Nt]; [destruct (N src eq_refl)|apply IH, U].
      * destruct (Nat.eqb_spec t t') as [->|Nt]; intros E.
        -- right. right. left. exists src. split; [reflexivity|]. split; [exact K1|apply IH, E].
        -- right. right. right. split; [apply IH, E|congruence].
Qed.
Theorem bare_iff os : legal os -> forall t, bare os t <-> t < many os /\ cell (wrun os) t = None.
Proof.
  revert os. refine (legal_ind (fun os => forall t, bare os t <-> t < many os /\ cell (wrun os) t = None) _ _).
  - intros t. split.
    + intros U. inversion U as [y E|y k Us E|y k src L Us E|y o k Us N E]; destruct y; discriminate E.
    + intros [L E]. destruct t as [|t]; [discriminate E|cbn in L; lia].
  - intros os x P K IH t. rewrite bare_snoc, step_cell by assumption. pose proof (step_many os x P K) as M. destruct x as [o| |src|t' src].
    + split.
      * intros [[C _]|[(src & C & _)|[(src & C & _)|(U & _)]]]; try discriminate C. apply IH in U as [U1 U2]. destruct (Nat.ltb_spec t (many os)); [split; [lia|exact U2]|lia].
      * intros [L E]. destruct (Nat.ltb_spec t (many os)); [right; right; right; split; [apply IH; auto|discriminate]|].
        destruct (Nat.ltb_spec t (many (os ++ [WCall o]))); [discriminate E|lia].
    + split.
      * intros [[_ ->]|[(src & C & _)|[(src & C & _)|(U & _)]]]; try discriminate C.
        -- split; [lia|]. apply nth_overflow. rewrite <- many_cells. lia.
        -- apply IH in U as [U1 U2]. split; [lia|exact U2].
      * intros [L E]. destruct (Nat.eq_dec t (many os)) as [->|N]; [auto|]. right. right. right. split; [apply IH; split; [lia|exact E]|discriminate].
    + split.
      * intros [[C _]|[(src' & C & -> & U)|[(src' & C & _)|(U & _)]]]; try discriminate C.
        -- injection C as ->. rewrite Nat.eqb_refl. apply IH in U as [U1 U2]. split; [lia|exact U2].
        -- apply IH in U as [U1 U2]. destruct (Nat.eqb_spec t (many os)); [lia|]. split; [lia|exact U2].
      * intros [L E]. cbn [wknown] in K. rewrite <- many_cells in K. destruct (Nat.eqb_spec t (many os)) as [->|N].
        -- right. left. exists src. split; [reflexivity|]. split; [reflexivity|]. apply IH. auto.
        -- right. right. right. split; [apply IH; split; [lia|exact E]|discriminate].
    + destruct K as [K1 K2]. rewrite <- many_cells in K1, K2. split.
      * intros [[C _]|[(src' & C & _)|[(src' & C & L & U)|(U & N)]]]; try discriminate C.
        -- injection C as -> ->. rewrite Nat.eqb_refl. apply IH in U as [U1 U2]. split; [lia|exact U2].
        -- apply IH in U as [U1 U2]. destruct (Nat.eqb_spec t t') as [->|Nt]; [destruct (N src eq_refl)|]. split; [lia|exact U2].
      * intros [L E]. destruct (Nat.eqb_spec t t') as [->|Nt].
        -- right. right. left. exists src. split; [reflexivity|]. split; [exact K1|]. apply IH. auto.
        -- right. right. right. split; [apply IH; split; [lia|exact E]|congruence].
Qed.

(** ** What the program sees after a statement *)
Lemma trs_ext s s' : length (s_trs s) = length (s_trs s') -> (forall t, t < length (s_trs s) -> the_tr s t = the_tr s' t) ->
  s = put_trs s' (s_trs s) -> s = s'.
Proof.
  intros L H E. assert (Et : s_trs s = s_trs s') by (apply (nth_ext _ _ no_tr no_tr); [exact L|exact H]).
  rewrite E, Et. destruct s'. reflexivity.
Qed.
Lemma flat_store w o s' : flat (store w o s') = put_trs s' (s_trs (flat (store w o s'))).
Proof. reflexivity. Qed.
Lemma call_plain os o : legal os -> known (seen os) o -> (target o = None \/ exists t, target o = Some t /\ bare os t) ->
  seen (os ++ [WCall o]) = snd (call (wrun os) o).
Proof.
  intros P K Q. pose proof (winv_run os P) as I. unfold ShareSpec.seen in *. rewrite wrun_snoc, step_is. cbn [snd].
  destruct (call_ok (wrun os) o I K) as (L & Sm & W). set (s' := snd (call (wrun os) o)) in *.
  assert (Ln : length (s_trs (flat (store (wrun os) o s'))) = length (s_trs s')) by (rewrite flat_len; apply store_cells_len; assumption).
  assert (Kp : forall t, t < length (w_cells (wrun os)) -> the_tr s' t = the_tr (flat (wrun os)) t).
  { intros t H. destruct Q as [Q|(t0 & T & B)]; [apply Sm; [exact H|congruence]|]. apply bare_iff in B as [B1 B2]; [|exact P].
    unfold s', call. rewrite T, B2. apply (n_keeps _ _ (nil_untouched (flat (wrun os)) o ltac:(congruence))). rewrite flat_len. exact H. }
  apply trs_ext; [exact Ln| |apply flat_store]. intros t H. rewrite Ln in H.
  destruct (Nat.lt_ge_cases t (length (w_cells (wrun os)))) as [Lt|Lt]; [|apply store_made; auto].
  rewrite Kp by exact Lt. apply store_apart; auto. intros t0 T. destruct Q as [Q|(t1 & T1 & B)]; [congruence|].
  rewrite T in T1. injection T1 as <-. apply bare_iff in B as [_ B]; [|exact P]. rewrite B. destruct (cell (wrun os) t); [left; discriminate|right; reflexivity].
Qed.
Lemma call_own os o : (forall t, target o = Some t -> cell (wrun os) t <> None) -> call (wrun os) o = (false, do_op (seen os) o).
Proof.
  intros H. unfold call. destruct (target o) as [t|]; [|reflexivity]. specialize (H t eq_refl). destruct (cell (wrun os) t); [reflexivity|contradiction].
Qed.
Theorem call_shared os o t0 c : legal os -> known (seen os) o -> target o = Some t0 -> langs_of os t0 c ->
  seen (os ++ [WCall o]) = put_trs (do_op (seen os) o) (s_trs (seen (os ++ [WCall o])))
  /\ many (os ++ [WCall o]) = many os
  /\ (forall t, langs_of os t c -> the_tr (seen (os ++ [WCall o])) t = the_tr (do_op (seen os) o) t0)
  /\ (forall t, t < many os -> ~ langs_of os t c -> the_tr (seen (os ++ [WCall o])) t = the_tr (seen os) t).
Proof.
  intros P K T U. pose proof (winv_run os P) as I. apply langs_iff in U; [|exact P].
  assert (N : forall t, target o = Some t -> cell (wrun os) t <> None) by (intros t E; rewrite T in E; injection E as <-; congruence).
  destruct (call_ok (wrun os) o I K) as (L & Sm & W). rewrite (call_own os o N) in *. cbn [snd] in *.
  assert (E : seen (os ++ [WCall o]) = flat (store (wrun os) o (do_op (seen os) o))) by (unfold ShareSpec.seen; rewrite wrun_snoc, step_is, (call_own os o N); reflexivity).
  split; [rewrite E; apply flat_store|]. split; [|split].
  - unfold ShareSpec.many. rewrite E, flat_len, store_cells_len by assumption. unfold ShareSpec.seen. rewrite (flat_len (wrun os)).
    rewrite <- (flat_len (wrun os)). clear -K T. unfold ShareSpec.seen in K. set (s := flat (wrun os)) in *. clearbody s.
    destruct o; try discriminate T; cbn [known TransModel.do_op] in *.
    + unfold add_or_replace. destruct x as [|a|u]; cbn [tor_lang]; [reflexivity| |].
      * destruct (lang (the_file s a)) as [l f]. destruct l; [reflexivity|]. cbn. apply upd_length.
      * destruct (u_lang u); [reflexivity|]. cbn. apply upd_length.
    + rewrite load_po_spec by exact K. destruct (read_po content); try reflexivity. apply with_files_trs.
    + rewrite load_mo_spec by exact K. destruct (read_mo content); try reflexivity. apply with_files_trs.
    + rewrite load_fs_spec by exact K. apply with_files_trs.
  - intros t Ut. apply langs_iff in Ut; [|exact P]. rewrite E. apply store_through; auto; try congruence. eapply cell_known, Ut.
  - intros t H Nt. rewrite E. unfold ShareSpec.seen. rewrite many_cells in H. apply store_apart; auto. intros t1 T1. rewrite T in T1. injection T1 as <-.
    rewrite U. left. intros C. apply Nt. apply langs_iff; [exact P|]. symmetry. exact C.
Qed.
(** a language the call does not add *)
Lemma into_same s (o : @op A) t l : known s o -> target o = Some t -> ~ puts norm t l s o ->
  tr_get (the_tr (do_op s o) t) l = tr_get (the_tr s t) l.
Proof.
  intros K T N.
  assert (Q : forall cs, t < length (s_trs s) -> ~ (exists f, In f cs /\ speaks norm l f) ->
    tr_get (the_tr (with_files norm s t cs) t) l = tr_get (the_tr s t) l).
  { intros cs H Nn. destruct (with_files_langs norm s t cs l H) as [(f & a & (l1 & l2 & -> & Hf & _) & _)|[_ E]]; [|exact E].
    exfalso. apply Nn. exists f. split; [apply in_or_app; right; left; reflexivity|exact Hf]. }
  destruct o; try discriminate T; injection T as ->; cbn [known TransModel.do_op puts] in *.
  - rewrite language_named in N. destruct (add_get norm fmt s t x l (proj1 K)) as (_ & G2 & _). apply G2. right.
    destruct (fst (tor_lang s x)) as [|c r] eqn:El; [auto|right]. intros En. apply N. split; [reflexivity|split; [congruence|exact En]].
  - rewrite load_po_spec by exact K. unfold as_po in N. destruct (read_po content) as [f| | |]; try reflexivity. cbn [snd]. apply Q; [exact K|].
    intros (g & [<-|[]] & Sp). apply N. split; [reflexivity|]. exists f. auto.
  - rewrite load_mo_spec by exact K. unfold as_mo in N. destruct (read_mo content) as [f| |]; try reflexivity. cbn [snd]. apply Q; [exact K|].
    intros (g & [<-|[]] & Sp). apply N. split; [reflexivity|]. exists f. auto.
  - rewrite load_fs_spec by exact K. apply Q; [exact K|]. intros E. apply N. split; [reflexivity|exact E].
Qed.
Lemma load_same s (o : @op A) t l : known s o -> loading o -> target o = Some t ->
  (exists f a, last_of (speaks norm l) (read_by o) f /\ tr_get (the_tr (do_op s o) t) l = Some (TFile a) /\ same_file f (the_file (do_op s o) a))
  \/ (forall g, In g (read_by o) -> ~ speaks norm l g) /\ tr_get (the_tr (do_op s o) t) l = tr_get (the_tr s t) l.
Proof.
  intros K Ld T. destruct o; try contradiction; injection T as ->; cbn [known TransModel.do_op read_by] in *.
  - rewrite load_po_spec by exact K. unfold as_po. destruct (read_po content) as [f| | |]; try (right; split; [intros g []|reflexivity]). cbn [snd].
    destruct (with_files_langs norm s t [f] l K) as [(g & a & Q1 & Q2 & _ & Q3)|Q]; [left; eauto|right; exact Q].
  - rewrite load_mo_spec by exact K. unfold as_mo. destruct (read_mo content) as [f| |]; try (right; split; [intros g []|reflexivity]). cbn [snd].
    destruct (with_files_langs norm s t [f] l K) as [(g & a & Q1 & Q2 & _ & Q3)|Q]; [left; eauto|right; exact Q].
  - rewrite load_fs_spec by exact K. cbn [snd].
    destruct (with_files_langs norm s t (catalogs (B ".mo") wm ++ catalogs (B ".po") wp) l K) as [(g & a & Q1 & Q2 & _ & Q3)|Q]; [left; eauto|right; exact Q].
Qed.
(** a handle sees only the translations its domains lead to *)
Lemma at_reached s trs h : (forall d, the_tr (put_trs s trs) (h_get_or_noop s h d) = the_tr s (h_get_or_noop s h d)) ->
  TransSpec.same_at fmt norm s h (put_trs s trs) h.
Proof.
  intros E. assert (D : forall d, h_get (put_trs s trs) h d = h_get s h d) by reflexivity.
  assert (G : the_tr (put_trs s trs) (h_get_or_noop (put_trs s trs) h (h_domain (put_trs s trs) h)) = the_tr s (h_get_or_noop s h (h_domain s h))) by exact (E (h_domain s h)).
  assert (T : the_tor (put_trs s trs) h = the_tor s h) by (unfold the_tor; rewrite G; reflexivity).
  repeat (split; [reflexivity|]). split; [|split; [|split]].
  - unfold used_locale. change (h_domain (put_trs s trs) h) with (h_domain s h). rewrite D. specialize (E (h_domain s h)). unfold h_get_or_noop in E.
    destruct (h_get s h (h_domain s h)) as [t|]; [rewrite E|]; reflexivity.
  - intros out. unfold locales. cbn zeta. rewrite G. reflexivity.
  - intros c i args. unfold h_x. rewrite T. destruct (the_tor s h); reflexivity.
  - intros c i i2 n args. unfold h_xn64. rewrite T. destruct (the_tor s h); try reflexivity. rewrite !tor_xn_file. reflexivity.
Qed.
Lemma view_reached s trs h : h < length (s_ts s) -> (forall d, the_tr (put_trs s trs) (h_get_or_noop s h d) = the_tr s (h_get_or_noop s h d)) ->
  TransSpec.same_view fmt norm s h (put_trs s trs) h.
Proof.
  intros H E. split; [apply at_reached, E|]. intros d l. apply (at_reached (retarget s h d l) trs h). intros d'.
  assert (Q : h_get_or_noop (retarget s h d l) h d' = h_get_or_noop s h d').
  { unfold h_get_or_noop, h_get, h_domains. rewrite retarget_ts by exact H. reflexivity. }
  rewrite Q. exact (E d').
Qed.
End Facts.
