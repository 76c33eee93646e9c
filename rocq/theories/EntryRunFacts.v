(** Histories of programs that share entries: contents and listings. *)
From Coq Require Import List ZArith Ascii Lia Permutation.
From Verif Require Import GoStr GoStrFacts GoMap GoMapFacts FileModel PoModel MoModel PoSpec FileSpec FileFacts PoCatalogFacts EntryModel EntrySpec EntryFacts.
Import ListNotations.
Local Open Scope nat_scope.

(** ** Catalogs read have each key once *)
Lemma add_filed f e : filed f -> filed (add_entry f e).
Proof.
  intros [N F]. split; rewrite add_entry_entries; [apply nodup_put, N|].
  intros k x H. apply in_mput in H as [[= -> ->]|H]; [reflexivity|apply F, H].
Qed.
Lemma new_filed : filed new_file.
Proof. split; [constructor|intros k e []]. Qed.
Lemma loop_filed n pot : forall f lines g, filed f -> read_loop n pot f lines = PoOk g -> filed g.
Proof.
  induction n as [|n IH]; intros f lines g F H; cbn [read_loop] in H; [discriminate|].
  destruct (read_entry SNone zero_entry lines) as [e|e rest| |].
  - injection H as <-. destruct (pot || is_valid e); [apply add_filed|]; exact F.
  - apply IH in H; [exact H|]. destruct (pot || is_valid e); [apply add_filed|]; exact F.
  - destruct pot; discriminate.
  - discriminate.
Qed.
Lemma strings_filed c ids : forall strs f g, filed f -> read_strings c ids strs f = MoOk g -> filed g.
Proof.
  induction ids as [|i ids IH]; intros [|s strs] f g F H; cbn [read_strings] in H; try (injection H as <-; exact F); try discriminate.
  destruct (read_str c i); [|discriminate]. destruct (read_str c s); [|discriminate]. apply IH in H; [exact H|apply add_filed, F].
Qed.
Section Runs.
Context {A : Type}.
Variable fmt : bytes -> list A -> bytes.
Implicit Types (os : list (pop A)) (o : pop A).
Lemma catalog_filed o g : catalog_of o = Some g -> filed g.
Proof.
  assert (P : forall pot c g, read_po_ pot c = PoOk g -> filed g).
  { intros pot [|x c] g0 H; cbn [read_po_] in H; [discriminate|]. exact (loop_filed _ _ _ _ _ new_filed H). }
  destruct o as [e|a e| |c|c|c|f a|f k|f|f c i args|f c i i2 n args]; cbn [catalog_of]; intros H; try discriminate.
  - destruct (read_po c) eqn:E; try discriminate. injection H as <-. exact (P _ _ _ E).
  - destruct (read_pot c) eqn:E; try discriminate. injection H as <-. exact (P _ _ _ E).
  - destruct (read_mo c) eqn:E; try discriminate. injection H as <-. unfold read_mo in E.
    destruct (read_magic c) as [m|]; [|discriminate].
    assert (Q : forall bo, match read_header bo c with
        | None => MoErr
        | Some h =>
            if (negb (h_major h =? 0) && negb (h_major h =? 1))%N then MoErr else
            if (negb (h_minor h =? 0) && negb (h_minor h =? 1))%N then MoErr else
            match read_table bo (h_count h) (drop (h_o h) c) with
            | None => MoErr
            | Some ids =>
                match read_table bo (h_count h) (drop (h_t h) c) with
                | None => MoErr
                | Some strs => read_strings c ids strs new_file
                end
            end
        end = MoOk f -> filed f).
    { intros bo. destruct (read_header bo c) as [h|]; [|discriminate]. destruct (_ && _)%bool; [discriminate|]. destruct (_ && _)%bool; [discriminate|].
      destruct (read_table _ _ _); [|discriminate]. destruct (read_table _ _ _); [|discriminate]. intros K. exact (strings_filed _ _ _ _ _ new_filed K). }
    destruct (m =? mo_magic_big)%N; [exact (Q BE E)|]. destruct (m =? mo_magic)%N; [exact (Q LE E)|discriminate].
Qed.

(** ** One more call *)
Lemma snoc_split {X} (l : list X) x a y b : l ++ [x] = a ++ y :: b -> (b = [] /\ y = x /\ a = l) \/ exists b', b = b' ++ [x] /\ l = a ++ y :: b'.
Proof.
  destruct b as [|z b _] using rev_ind; intros H.
  - left. apply app_inj_tail in H as [-> ->]. auto.
  - right. exists b. replace (a ++ y :: b ++ [z]) with ((a ++ y :: b) ++ [z]) in H by (rewrite <- app_assoc; reflexivity).
    apply app_inj_tail in H as [-> ->]. auto.
Qed.
Lemma made_snoc os o : made (os ++ [o]) = made os ++ makes o.
Proof. unfold made. rewrite map_app, concat_app. cbn. rewrite app_nil_r. reflexivity. Qed.
Lemma files_snoc os o : files (os ++ [o]) = files os + length (makes_file o).
Proof. unfold files. rewrite map_app, concat_app. cbn. rewrite app_nil_r, app_length. reflexivity. Qed.
Lemma proper_snoc os o : proper (os ++ [o]) <-> proper os /\ uses os o.
Proof.
  split.
  - intros H. split; [|exact (H os o [] eq_refl)]. intros u x v ->. apply (H u x (v ++ [o])). rewrite <- app_assoc. reflexivity.
  - intros [H U] u x v E. apply snoc_split in E as [(-> & -> & ->)|(b & -> & E)]; [exact U|]. exact (H _ _ _ E).
Qed.
Lemma unset_snoc os o a : unset (os ++ [o]) a <-> unset os a /\ forall e, o <> PSet a e.
Proof.
  unfold unset. split.
  - intros H. split; intros e I; apply (H e), in_or_app; [left; exact I|right; left; exact I].
  - intros [H N] e I. apply in_app_or in I as [I|[I|[]]]; [exact (H _ I)|exact (N _ I)].
Qed.
Lemma set_before os a e : proper os -> In (PSet a e) os -> a < length (made os).
Proof.
  intros P I. apply List.in_split in I as (u & v & ->). pose proof (P u _ v eq_refl) as U. cbn in U. unfold made in *.
  rewrite map_app, concat_app, app_length. lia.
Qed.
Lemma contents_before os a e : proper os -> contents os a e -> a < length (made os).
Proof.
  intros P [(u & v & -> & _)|[_ N]]; [|apply nth_error_Some; congruence].
  eapply set_before; [exact P|apply in_or_app; right; left; reflexivity].
Qed.
Lemma contents_set os b e' a e : proper (os ++ [PSet b e']) ->
  (contents (os ++ [PSet b e']) a e <-> a = b /\ e = e' \/ a <> b /\ contents os a e).
Proof.
  intros P. unfold contents. split.
  - intros [(u & v & E & U)|[U N]].
    + apply snoc_split in E as [(-> & [= -> ->] & ->)|(v' & -> & ->)]; [left; auto|].
      apply unset_snoc in U as [U N]. right. split; [intros ->; exact (N e' eq_refl)|]. left. eauto.
    + apply unset_snoc in U as [U N']. right. split; [intros ->; exact (N' e' eq_refl)|]. right. split; [exact U|].
      rewrite made_snoc in N. cbn in N. rewrite app_nil_r in N. exact N.
  - intros [[-> ->]|[Nb [(u & v & -> & U)|[U N]]]].
    + left. exists os, []. split; [reflexivity|intros x []].
    + left. exists u, (v ++ [PSet b e']). split; [rewrite <- app_assoc; reflexivity|]. apply unset_snoc. split; [exact U|]. intros x E. injection E as E _. congruence.
    + right. split; [apply unset_snoc; split; [exact U|intros x E; injection E as E _; congruence]|].
      rewrite made_snoc. cbn. rewrite app_nil_r. exact N.
Qed.
Lemma contents_other os o a e : proper (os ++ [o]) -> (forall b e', o <> PSet b e') ->
  (contents (os ++ [o]) a e <-> contents os a e \/ length (made os) <= a /\ nth_error (makes o) (a - length (made os)) = Some e).
Proof.
  intros P Ns. apply proper_snoc in P as [P _]. unfold contents. split.
  - intros [(u & v & E & U)|[U N]].
    + apply snoc_split in E as [(-> & E & ->)|(v' & -> & ->)]; [exfalso; exact (Ns _ _ (eq_sym E))|].
      apply unset_snoc in U as [U _]. left. left. eauto.
    + apply unset_snoc in U as [U _]. rewrite made_snoc in N. destruct (Nat.lt_ge_cases a (length (made os))) as [L|L].
      * rewrite nth_error_app1 in N by exact L. left. right. auto.
      * rewrite nth_error_app2 in N by exact L. right. auto.
  - intros [[(u & v & -> & U)|[U N]]|[L N]].
    + left. exists u, (v ++ [o]). split; [rewrite <- app_assoc; reflexivity|]. apply unset_snoc. auto.
    + right. split; [apply unset_snoc; auto|]. rewrite made_snoc, nth_error_app1; [exact N|apply nth_error_Some; congruence].
    + right. split; [apply unset_snoc; split; [|auto]; intros x I; pose proof (set_before _ _ _ P I); lia|].
      rewrite made_snoc, nth_error_app2 by exact L. exact N.
Qed.
(** what is listed after one more call *)
Lemma keeps_nil u f k : keeps_name (A := A) u [] f k.
Proof. intros x o y E. destruct x; discriminate. Qed.
Lemma keeps_snoc os1 os2 o f k : keeps_name os1 (os2 ++ [o]) f k <-> keeps_name os1 os2 f k /\ forall a, ~ enters (os1 ++ os2) o f k a.
Proof.
  split.
  - intros H. split; [|intros a; exact (H os2 o [] eq_refl a)]. intros u x v -> a. apply (H u x (v ++ [o])). rewrite <- app_assoc. reflexivity.
  - intros [H N] u x v E a. apply snoc_split in E as [(-> & -> & ->)|(b & -> & E)]; [apply N|exact (H _ _ _ E a)].
Qed.
Definition read_now os o f k a : Prop :=
  exists g i e, catalog_of o = Some g /\ f = files os /\ nth_error (f_entries g) i = Some (k, e) /\ a = length (made os) + i.
Lemma lists_snoc os o f k a :
  lists (os ++ [o]) f k a <-> enters os o f k a \/ read_now os o f k a \/ lists os f k a /\ forall b, ~ enters os o f k b.
Proof.
  split.
  - intros [(u & v & x & E & En & K)|(u & v & x & g & i & e & E & C & F & N & Ea & K)].
    + apply snoc_split in E as [(-> & -> & ->)|(v' & -> & ->)]; [left; exact En|]. apply keeps_snoc in K as [K Nk].
      right. right. split; [left; exists u, v', x; auto|]. intros b. specialize (Nk b). rewrite <- app_assoc in Nk. exact Nk.
    + apply snoc_split in E as [(-> & -> & ->)|(v' & -> & ->)]; [right; left; exists g, i, e; auto|]. apply keeps_snoc in K as [K Nk].
      right. right. split; [right; exists u, v', x, g, i, e; auto 10|]. intros b. specialize (Nk b). rewrite <- app_assoc in Nk. exact Nk.
  - intros [En|[(g & i & e & C & F & N & Ea)|[[(u & v & x & -> & En & K)|(u & v & x & g & i & e & -> & C & F & N & Ea & K)] Nk]]].
    + left. exists os, [], o. split; [reflexivity|]. split; [exact En|apply keeps_nil].
    + right. exists os, [], o, g, i, e. split; [reflexivity|]. auto 10 using keeps_nil.
    + left. exists u, (v ++ [o]), x. split; [rewrite <- app_assoc; reflexivity|]. split; [exact En|]. apply keeps_snoc. split; [exact K|].
      intros b. rewrite <- app_assoc. apply Nk.
    + right. exists u, (v ++ [o]), x, g, i, e. split; [rewrite <- app_assoc; reflexivity|]. do 4 (split; [assumption|]). apply keeps_snoc. split; [exact K|].
      intros b. rewrite <- app_assoc. apply Nk.
Qed.

(** ** What the store contains *)
Lemma entries_init_header hp f : q_entries (p_init_header hp f) = q_entries f.
Proof. unfold p_init_header. destruct (q_headers f); reflexivity. Qed.
Lemma entries_get_header hp k f : q_entries (snd (p_get_header hp k f)) = q_entries f.
Proof. apply entries_init_header. Qed.
Lemma entries_init_plural hp f : q_entries (p_init_plural hp f) = q_entries f.
Proof.
  unfold p_init_plural. destruct (q_rule f); [reflexivity|]. pose proof (entries_get_header hp H_plural_forms f) as E.
  destruct (p_get_header hp H_plural_forms f). exact E.
Qed.
Lemma entries_add hp f a : q_entries (p_add hp f a) = mput (e_key (deref hp a)) a (q_entries f).
Proof. unfold p_add. destruct (is_header _); [rewrite entries_init_plural, entries_init_header|]; reflexivity. Qed.
Lemma entries_lang hp f : q_entries (snd (p_lang hp f)) = q_entries f.
Proof. unfold p_lang. pose proof (entries_get_header hp H_language f) as E. destruct (p_get_header hp H_language f). exact E. Qed.
Lemma entries_xn hp f c i i2 n args : q_entries (snd (p_xn64 fmt hp f c i i2 n args)) = q_entries f.
Proof.
  unfold p_xn64. destruct (mget _ _) as [a|]; [|reflexivity]. destruct (_ && _)%bool; [reflexivity|].
  pose proof (entries_init_plural hp f) as E. destruct (q_rule (p_init_plural hp f)) as [p|]; [|exact E].
  destruct (p_total p <=? 0)%Z; [exact E|]. destruct (_ || _ || _)%bool; [exact E|]. destruct (nth_error _ _) as [s|]; [|exact E]. destruct (is_empty s); exact E.
Qed.
Lemma the_set s f x f' : f < length (st_files s) -> the_pfile (set_pfile s f x) f' = if Nat.eqb f' f then x else the_pfile s f'.
Proof.
  intros L. unfold the_pfile, set_pfile. cbn [st_files]. rewrite nth_put_at. replace (f <? length (st_files s)) with true by (symmetry; apply Nat.ltb_lt, L).
  rewrite Bool.andb_true_r. reflexivity.
Qed.
Lemma nth_number {V} n (m : gmap V) k : NoDup (keys m) -> forall a, mget k (number n m) = Some a <-> exists i v, nth_error m i = Some (k, v) /\ a = n + i.
Proof.
  intros N a. split.
  - intros H. apply mget_in, In_nth_error in H as (i & H). apply number_nth_inv in H as (-> & v & H). eauto.
  - intros (i & v & H & ->). apply in_mget; [rewrite number_keys; exact N|]. apply (number_nth n) in H. exact (nth_error_In _ _ H).
Qed.
Notation pruns := (pruns fmt).
Lemma pruns_snoc os o s : pruns (os ++ [o]) s = pstep fmt (pruns os s) o.
Proof. unfold EntryModel.pruns. rewrite fold_left_app. reflexivity. Qed.
Record inv os (s : pstore) : Prop := {
  i_heap : length (st_heap s) = length (made os);
  i_files : length (st_files s) = files os;
  i_contents : forall a e, nth_error (st_heap s) a = Some e <-> contents os a e;
  i_lists : forall f k a, mget k (q_entries (the_pfile s f)) = Some a <-> lists os f k a }.
Lemma enters_add os o f k a : enters os o f k a -> o = PAdd f a.
Proof. intros [E _]. exact E. Qed.
(** calls that neither make nor add anything *)
Lemma inv_quiet os o s s' : inv os s -> proper (os ++ [o]) -> makes o = [] -> makes_file o = [] -> catalog_of o = None ->
  (forall a e, o <> PSet a e) -> (forall f a, o <> PAdd f a) ->
  st_heap s' = st_heap s -> length (st_files s') = length (st_files s) ->
  (forall f, q_entries (the_pfile s' f) = q_entries (the_pfile s f)) -> inv (os ++ [o]) s'.
Proof.
  intros [I1 I2 I3 I4] P M MF C Ns Na Eh Ef Ee. constructor.
  - rewrite Eh, made_snoc, M, app_nil_r. exact I1.
  - rewrite Ef, files_snoc, MF, Nat.add_0_r. exact I2.
  - intros a e. rewrite Eh, I3, (contents_other os o a e P Ns), M. split; [auto|]. intros [H|[_ H]]; [exact H|]. destruct (a - _); discriminate.
  - intros f k a. rewrite Ee, I4, lists_snoc. split.
    + intros L. right. right. split; [exact L|]. intros b E. exact (Na _ _ (enters_add _ _ _ _ _ E)).
    + intros [E|[(g & i & e & E & _)|[L _]]]; [exfalso; exact (Na _ _ (enters_add _ _ _ _ _ E))|congruence|exact L].
Qed.
Lemma inv_touch os o s f x : inv os s -> proper (os ++ [o]) -> makes o = [] -> makes_file o = [] -> catalog_of o = None ->
  (forall a e, o <> PSet a e) -> (forall f a, o <> PAdd f a) -> f < files os ->
  q_entries x = q_entries (the_pfile s f) -> inv (os ++ [o]) (set_pfile s f x).
Proof.
  intros I P M MF C Ns Na L E. eapply inv_quiet; [exact I|assumption..|reflexivity| |].
  - cbn [set_pfile st_files]. apply put_at_length.
  - intros f'. rewrite the_set by (rewrite (i_files _ _ I); exact L). destruct (Nat.eqb_spec f' f) as [->|_]; [exact E|reflexivity].
Qed.
Lemma inv_read os o s g : inv os s -> proper (os ++ [o]) -> catalog_of o = Some g -> inv (os ++ [o]) (store_read s g).
Proof.
  intros [I1 I2 I3 I4] P C.
  assert (Mk : makes o = vals (f_entries g) /\ makes_file o = [tt] /\ (forall a e, o <> PSet a e) /\ (forall f a, o <> PAdd f a)).
  { destruct o; try discriminate C; cbn [makes makes_file]; rewrite C; repeat split; discriminate. }
  destruct Mk as (M & MF & Ns & Na). pose proof (catalog_filed o g C) as [Nd _]. constructor.
  - cbn [store_read st_heap]. rewrite made_snoc, !app_length, M, I1. reflexivity.
  - cbn [store_read st_files]. rewrite files_snoc, app_length, MF, I2. reflexivity.
  - intros a e. cbn [store_read st_heap]. rewrite (contents_other os o a e P Ns), M, <- I3, <- I1.
    destruct (Nat.lt_ge_cases a (length (st_heap s))) as [L|L].
    + rewrite nth_error_app1 by exact L. split; [auto|]. intros [H|[H _]]; [exact H|lia].
    + rewrite nth_error_app2 by exact L. split; [auto|]. intros [H|[_ H]]; [|exact H].
      exfalso. assert (nth_error (st_heap s) a <> None) as K by congruence. apply nth_error_Some in K. lia.
  - intros f k a. rewrite lists_snoc. unfold the_pfile. cbn [store_read st_files].
    destruct (Nat.lt_trichotomy f (length (st_files s))) as [L|[L|L]].
    + rewrite app_nth1 by exact L. fold (the_pfile s f). rewrite I4. split.
      * intros K. right. right. split; [exact K|]. intros b E. exact (Na _ _ (enters_add _ _ _ _ _ E)).
      * intros [E|[(g' & i & e & _ & -> & _)|[K _]]]; [exfalso; exact (Na _ _ (enters_add _ _ _ _ _ E))|rewrite <- I2 in L; lia|exact K].
    + rewrite app_nth2 by lia. rewrite L, Nat.sub_diag. cbn [nth q_entries]. rewrite (nth_number _ _ _ Nd). split.
      * intros (i & v & N & ->). right. left. exists g, i, v. rewrite <- I1, <- I2. auto.
      * intros [E|[(g' & i & e & C' & _ & N & ->)|[K _]]].
        -- exfalso; exact (Na _ _ (enters_add _ _ _ _ _ E)).
        -- rewrite I1. exists i, e. split; [congruence|reflexivity].
        -- exfalso. apply I4 in K. unfold the_pfile in K. rewrite nth_overflow in K by lia. discriminate.
    + rewrite nth_overflow by (rewrite app_length; cbn [length]; lia). split; [discriminate|].
      intros [E|[(g' & i & e & _ & -> & _)|[K _]]]; [exfalso; exact (Na _ _ (enters_add _ _ _ _ _ E))|rewrite <- I2 in L; lia|].
      apply I4 in K. unfold the_pfile in K. rewrite nth_overflow in K by lia. discriminate.
Qed.
Lemma inv_none os o s : inv os s -> proper (os ++ [o]) -> makes o = [] -> makes_file o = [] -> catalog_of o = None ->
  (forall a e, o <> PSet a e) -> (forall f a, o <> PAdd f a) -> inv (os ++ [o]) s.
Proof. intros. eapply inv_quiet; eauto. Qed.
Lemma inv_quiet_file os s : inv os s -> proper (os ++ [PFile]) -> inv (os ++ [PFile]) {| st_heap := st_heap s; st_files := st_files s ++ [new_pfile] |}.
Proof.
  intros [I1 I2 I3 I4] P. constructor; cbn [st_heap st_files].
  - rewrite made_snoc, app_length, I1. cbn. lia.
  - rewrite files_snoc, app_length, I2. reflexivity.
  - intros a e. rewrite (contents_other os _ a e P) by discriminate. rewrite I3. split; [auto|]. intros [H|[_ H]]; [exact H|]. cbn in H. destruct (a - _); discriminate.
  - intros f k a. assert (E : the_pfile {| st_heap := st_heap s; st_files := st_files s ++ [new_pfile] |} f = the_pfile s f).
    { unfold the_pfile. cbn [st_files]. destruct (Nat.lt_ge_cases f (length (st_files s))) as [L|L]; [apply app_nth1, L|].
      rewrite app_nth2 by exact L. rewrite (nth_overflow (st_files s)) by exact L. destruct (f - _) as [|[|]]; reflexivity. }
    rewrite E, I4, lists_snoc. split.
    + intros L. right. right. split; [exact L|]. intros b [K _]. discriminate.
    + intros [[K _]|[(g & i & x & K & _)|[L _]]]; [discriminate|discriminate|exact L].
Qed.
Lemma inv_add os s f a : inv os s -> proper (os ++ [PAdd f a]) ->
  inv (os ++ [PAdd f a]) (if a <? length (st_heap s) then set_pfile s f (p_add (st_heap s) (the_pfile s f) a) else s).
Proof.
  intros I P. pose proof P as P0. apply proper_snoc in P0 as [_ [Lf La]]. destruct I as [I1 I2 I3 I4].
  replace (a <? length (st_heap s)) with true by (symmetry; apply Nat.ltb_lt; lia).
  assert (Ca : contents os a (deref (st_heap s) a)) by (apply I3, nth_error_nth'; lia).
  assert (Eq : forall k b, enters os (PAdd f a) f k b <-> b = a /\ k = e_key (deref (st_heap s) a)).
  { intros k b. split.
    - intros ([= ->] & e & C & K). apply I3 in C. split; [reflexivity|]. rewrite <- K. unfold deref. rewrite (nth_error_nth _ _ _ C). reflexivity.
    - intros [-> ->]. split; [reflexivity|]. exists (deref (st_heap s) a). split; [exact Ca|reflexivity]. }
  constructor; cbn [set_pfile st_heap st_files].
  - rewrite made_snoc, app_length, I1. cbn. lia.
  - rewrite put_at_length, files_snoc, I2. cbn. lia.
  - intros b e. rewrite (contents_other os _ b e P) by discriminate. rewrite I3. split; [auto|]. intros [H|[_ H]]; [exact H|]. cbn in H. destruct (b - _); discriminate.
  - intros f' k b. change {| st_heap := st_heap s; st_files := put_at f (p_add (st_heap s) (the_pfile s f) a) (st_files s) |} with (set_pfile s f (p_add (st_heap s) (the_pfile s f) a)).
    rewrite the_set by lia. rewrite lists_snoc. destruct (Nat.eqb_spec f' f) as [->|Nf].
    + rewrite entries_add, mget_put. split.
      * destruct (beq_spec k (e_key (deref (st_heap s) a))) as [->|Nk]; intros H.
        -- injection H as <-. left. apply Eq. auto.
        -- right. right. split; [apply I4, H|]. intros x E. apply Eq in E as [_ E]. congruence.
      * intros [E|[(g & i & x & E & _)|[L N]]].
        -- apply Eq in E as [-> ->]. rewrite beq_refl. reflexivity.
        -- discriminate.
        -- destruct (beq_spec k (e_key (deref (st_heap s) a))) as [->|Nk]; [|apply I4, L]. exfalso. apply (N a), Eq. auto.
    + rewrite I4. split.
      * intros L. right. right. split; [exact L|]. intros x [E _]. injection E as E _. congruence.
      * intros [[E _]|[(g & i & x & E & _)|[L _]]]; [injection E as E _; congruence|discriminate|exact L].
Qed.
Lemma store_inv os : proper os -> inv os (pruns os no_store).
Proof.
  induction os as [|o os IH] using rev_ind; intros P.
  - constructor; [reflexivity|reflexivity| |].
    + intros a e. cbn. split; [destruct a; discriminate|]. intros [(u & v & E & _)|[_ E]]; [destruct u; discriminate E|destruct a; discriminate E].
    + intros f k a. change (pruns [] no_store) with no_store. replace (the_pfile no_store f) with new_pfile by (destruct f; reflexivity). split; [intros H; discriminate H|].
      intros [(u & v & o & E & _)|(u & v & o & g & i & e & E & _)]; destruct u; discriminate E.
  - rewrite pruns_snoc. pose proof P as P0. apply proper_snoc in P0 as [P1 U]. specialize (IH P1). set (s := pruns os no_store) in *.
    destruct o as [e|a e| |c|c|c|f a|f k|f|f c i args|f c i i2 n args]; cbn [pstep uses] in *.
    + destruct IH as [I1 I2 I3 I4]. constructor; cbn [st_heap st_files].
      * rewrite made_snoc, !app_length, I1. reflexivity.
      * rewrite files_snoc, I2. cbn. lia.
      * intros a x. rewrite (contents_other os _ a x P) by discriminate. cbn [makes]. rewrite <- I3, <- I1.
        destruct (Nat.lt_ge_cases a (length (st_heap s))) as [L|L].
        -- rewrite nth_error_app1 by exact L. split; [auto|]. intros [H|[H _]]; [exact H|lia].
        -- rewrite nth_error_app2 by exact L. split; [auto|]. intros [H|[_ H]]; [|exact H].
           exfalso. assert (nth_error (st_heap s) a <> None) as K by congruence. apply nth_error_Some in K. lia.
      * intros f k a. change (the_pfile _ f) with (the_pfile s f). rewrite I4, lists_snoc. split.
        -- intros L. right. right. split; [exact L|]. intros b [E _]. discriminate.
        -- intros [[E _]|[(g & i & x & E & _)|[L _]]]; [discriminate|discriminate|exact L].
    + destruct IH as [I1 I2 I3 I4]. constructor; cbn [st_heap st_files].
      * rewrite put_at_length, made_snoc, app_length, I1. cbn. lia.
      * rewrite files_snoc, I2. cbn. lia.
      * intros b x. rewrite (contents_set os a e b x P), <- I3.
        destruct (Nat.eq_dec b a) as [->|Nb].
        -- rewrite (nth_error_nth' (put_at a e (st_heap s)) zero_entry) by (rewrite put_at_length; lia). rewrite nth_put_at, Nat.eqb_refl.
           replace (a <? length (st_heap s)) with true by (symmetry; apply Nat.ltb_lt; lia). cbn [andb]. split; [intros [= <-]; auto|].
           intros [[_ ->]|[K _]]; [reflexivity|congruence].
        -- assert (Q : nth_error (put_at a e (st_heap s)) b = nth_error (st_heap s) b).
           { generalize (st_heap s) as l. clear - Nb. revert a b Nb. intros a b Nb l. revert a b Nb.
             induction l as [|y l IH]; intros [|a] [|b] Nb; cbn; try reflexivity; [congruence|]. apply IH. congruence. }
           rewrite Q. split; [auto|]. intros [[K _]|[_ K]]; [congruence|exact K].
      * intros f k b. change (the_pfile _ f) with (the_pfile s f). rewrite I4, lists_snoc. split.
        -- intros L. right. right. split; [exact L|]. intros x [E _]. discriminate.
        -- intros [[E _]|[(g & i & x & E & _)|[L _]]]; [discriminate|discriminate|exact L].
    + eapply inv_quiet_file; eassumption.
    + destruct (read_po c) as [g| | |] eqn:E; [apply inv_read; [exact IH|exact P|cbn; rewrite E; reflexivity]|..];
        (apply inv_none; [exact IH|exact P|cbn; rewrite ?E; reflexivity..|discriminate|discriminate]).
    + destruct (read_pot c) as [g| | |] eqn:E; [apply inv_read; [exact IH|exact P|cbn; rewrite E; reflexivity]|..];
        (apply inv_none; [exact IH|exact P|cbn; rewrite ?E; reflexivity..|discriminate|discriminate]).
    + destruct (read_mo c) as [g| |] eqn:E; [apply inv_read; [exact IH|exact P|cbn; rewrite E; reflexivity]|..];
        (apply inv_none; [exact IH|exact P|cbn; rewrite ?E; reflexivity..|discriminate|discriminate]).
    + eapply inv_add; eassumption.
    + apply inv_touch; try reflexivity; try discriminate; try assumption. apply entries_get_header.
    + apply inv_touch; try reflexivity; try discriminate; try assumption. apply entries_lang.
    + apply inv_none; try reflexivity; try discriminate; assumption.
    + apply inv_touch; try reflexivity; try discriminate; try assumption. apply entries_xn.
Qed.

(** ** The values of a program that leaves its entries alone *)
Lemma nodup_store os f : NoDup (keys (q_entries (the_pfile (pruns os no_store) f))).
Proof.
  revert f. induction os as [|o os IH] using rev_ind; intros f.
  - replace (the_pfile _ f) with new_pfile by (destruct f; reflexivity). constructor.
  - rewrite pruns_snoc. set (s := pruns os no_store) in *.
    assert (T : forall g x, NoDup (keys (q_entries x)) -> NoDup (keys (q_entries (the_pfile (set_pfile s g x) f)))).
    { intros g x N. unfold the_pfile, set_pfile. cbn [st_files]. rewrite nth_put_at. destruct (_ && _)%bool; [exact N|apply IH]. }
    assert (R : forall g, (exists o : pop A, catalog_of o = Some g) -> NoDup (keys (q_entries (the_pfile (store_read s g) f)))).
    { intros g (o' & C). pose proof (catalog_filed o' g C) as [Nd _]. unfold the_pfile, store_read. cbn [st_files].
      destruct (Nat.lt_ge_cases f (length (st_files s))) as [L|L]; [rewrite app_nth1 by exact L; apply IH|].
      rewrite app_nth2 by exact L. destruct (f - _) as [|[|]]; cbn [nth q_entries]; [rewrite number_keys; exact Nd|constructor|constructor]. }
    destruct o as [e|a e| |c|c|c|g a|g k|g|g c i args|g c i i2 n args]; cbn [pstep].
    + apply IH.
    + apply IH.
    + unfold the_pfile. cbn [st_files]. destruct (Nat.lt_ge_cases f (length (st_files s))) as [L|L]; [rewrite app_nth1 by exact L; apply IH|].
      rewrite app_nth2 by exact L. destruct (f - _) as [|[|]]; constructor.
    + destruct (read_po c) as [g| | |] eqn:E; try apply IH. apply R. exists (PReadPo c). cbn. rewrite E. reflexivity.
    + destruct (read_pot c) as [g| | |] eqn:E; try apply IH. apply R. exists (PReadPot c). cbn. rewrite E. reflexivity.
    + destruct (read_mo c) as [g| |] eqn:E; try apply IH. apply R. exists (PReadMo c). cbn. rewrite E. reflexivity.
    + destruct (a <? _); [|apply IH]. apply T. rewrite entries_add. apply nodup_put, IH.
    + apply T. rewrite entries_get_header. apply IH.
    + apply T. rewrite entries_lang. apply IH.
    + apply IH.
    + apply T. rewrite entries_xn. apply IH.
Qed.
Lemma made_app (u v : list (pop A)) : made (u ++ v) = made u ++ made v.
Proof. unfold made. rewrite map_app, concat_app. reflexivity. Qed.
Lemma files_app (u v : list (pop A)) : files (u ++ v) = files u + files v.
Proof. unfold files. rewrite map_app, concat_app, app_length. reflexivity. Qed.
Lemma made_one (o : pop A) : made [o] = makes o.
Proof. unfold made. cbn. apply app_nil_r. Qed.
Lemma catalog_makes (o : pop A) g : catalog_of o = Some g -> makes o = vals (f_entries g) /\ makes_file o = [tt].
Proof. intros C. destruct o; try discriminate C; cbn [makes makes_file]; rewrite C; split; reflexivity. Qed.
Lemma lists_lt os f k a : proper os -> lists os f k a -> a < length (made os) /\ f < files os.
Proof.
  intros P [(u & v & o & -> & [-> _] & _)|(u & v & o & g & i & e & -> & C & -> & N & -> & _)].
  - specialize (P u (PAdd f a) v eq_refl). cbn [uses] in P. rewrite made_app, files_app, app_length. lia.
  - destruct (catalog_makes o g C) as [M MF]. change (u ++ o :: v) with (u ++ [o] ++ v). rewrite !made_app, !files_app, !app_length, made_one, M.
    unfold vals. rewrite map_length. assert (i < length (f_entries g)) by (apply nth_error_Some; congruence).
    assert (files [o] = 1) by (unfold files; cbn [map concat]; rewrite MF; reflexivity). lia.
Qed.
Lemma view_same hp hp' q : (forall k a, In (k, a) (q_entries q) -> deref hp a = deref hp' a) -> view hp q = view hp' q.
Proof.
  intros H. unfold view. f_equal. apply map_ext_in. intros (k, a) I. cbn. rewrite (H k a I). reflexivity.
Qed.
Lemma number_view hp (m : gmap entry) : map (fun x : bytes * nat => (fst x, deref (hp ++ vals m) (snd x))) (number (length hp) m) = m.
Proof.
  enough (H : forall p (m : gmap entry), map (fun x : bytes * nat => (fst x, deref (hp ++ p ++ vals m) (snd x))) (number (length hp + length p) m) = m).
  { specialize (H [] m). cbn [app length] in H. rewrite Nat.add_0_r in H. exact H. }
  intros p m'. revert p. induction m' as [|(k, e) m' IH]; intros p; cbn [number map fst snd vals]; [reflexivity|]. f_equal.
  - f_equal. unfold deref. rewrite app_assoc, app_nth2; rewrite app_length; [|lia]. rewrite Nat.sub_diag. reflexivity.
  - specialize (IH (p ++ [e])). rewrite app_length in IH. cbn [length] in IH. rewrite <- app_assoc in IH. cbn [app] in IH.
    replace (S (length hp + length p)) with (length hp + (length p + 1)) by lia. exact IH.
Qed.
Lemma settled_snoc os o : settled (os ++ [o]) -> settled os /\ forall a e, o = PSet a e -> forall f k, ~ lists os f k a.
Proof.
  intros St. split.
  - intros u a e v -> . apply (St u a e (v ++ [o])). rewrite <- app_assoc. reflexivity.
  - intros a e ->. apply (St os a e []). reflexivity.
Qed.
Lemma values os : proper os -> settled os -> forall f, f < files os ->
  exists g l, acts f os g l /\ view (st_heap (pruns os no_store)) (the_pfile (pruns os no_store) f) = fold_left (step fmt) l g.
Proof.
  induction os as [|o os IH] using rev_ind; intros P St f Lf; [cbn in Lf; lia|].
  rewrite pruns_snoc. pose proof P as P0. apply proper_snoc in P0 as [P1 U]. apply settled_snoc in St as [St Ss].
  specialize (IH P1 St). pose proof (store_inv os P1) as I. pose proof (nodup_store os) as Nd. set (s := pruns os no_store) in *.
  assert (V : forall f k a, In (k, a) (q_entries (the_pfile s f)) -> a < length (st_heap s)).
  { intros f' k a H. rewrite (i_heap _ _ I). eapply lists_lt; [exact P1|]. apply (i_lists _ _ I). apply in_mget; [apply Nd|exact H]. }
  assert (Grow : forall l f, view (st_heap s ++ l) (the_pfile s f) = view (st_heap s) (the_pfile s f)).
  { intros l f'. apply view_same. intros k a H. unfold deref. apply app_nth1. exact (V _ _ _ H). }
  pose proof (i_files _ _ I) as If. rewrite files_snoc in Lf.
  assert (Quiet : forall s', makes_file o = [] -> match o with PAdd f' _ | PHeader f' _ | PLang f' | PX f' _ _ _ | PXn f' _ _ _ _ _ => f' <> f | _ => True end ->
            view (st_heap s') (the_pfile s' f) = view (st_heap s) (the_pfile s f) ->
            exists g l, acts f (os ++ [o]) g l /\ view (st_heap s') (the_pfile s' f) = fold_left (step fmt) l g).
  { intros s' M D E. rewrite M in Lf. destruct (IH f) as (g & l & Ha & Hv); [cbn in Lf; lia|]. exists g, l. split; [apply AC_other; assumption|congruence]. }
  assert (Read : forall g, catalog_of o = Some g -> exists g0 l, acts f (os ++ [o]) g0 l
            /\ view (st_heap (store_read s g)) (the_pfile (store_read s g) f) = fold_left (step fmt) l g0).
  { intros g C. destruct (catalog_makes o g C) as [_ MF]. rewrite MF in Lf. cbn [length] in Lf. destruct (Nat.eq_dec f (files os)) as [->|Nf].
    - exists g, []. split; [apply AC_read; [reflexivity|exact C]|]. cbn [fold_left]. unfold the_pfile, store_read. cbn [st_heap st_files].
      rewrite <- If, app_nth2, Nat.sub_diag by lia. cbn [nth]. unfold view. cbn [q_entries q_headers q_rule]. rewrite number_view. destruct g; reflexivity.
    - destruct (IH f) as (g0 & l & Ha & Hv); [lia|]. exists g0, l. split; [apply AC_other; [exact Ha|destruct o; try discriminate C; exact Logic.I]|].
      rewrite <- Hv, <- (Grow (vals (f_entries g))). unfold the_pfile, store_read. cbn [st_heap st_files]. rewrite app_nth1 by lia. reflexivity. }
  assert (Touch : forall x op, view (st_heap s) x = step fmt (view (st_heap s) (the_pfile s f)) op -> makes_file o = [] ->
            (forall g l, acts f os g l -> acts f (os ++ [o]) g (l ++ [op])) ->
            exists g l, acts f (os ++ [o]) g l /\ view (st_heap (set_pfile s f x)) (the_pfile (set_pfile s f x) f) = fold_left (step fmt) l g).
  { intros x op E M Ac. rewrite M in Lf. cbn in Lf. destruct (IH f) as (g & l & Ha & Hv); [lia|]. exists g, (l ++ [op]). split; [apply Ac, Ha|].
    rewrite the_set by lia. rewrite Nat.eqb_refl, fold_left_app. cbn [fold_left]. rewrite <- Hv. exact E. }
  assert (Else : forall f' x, f' <> f -> view (st_heap (set_pfile s f' x)) (the_pfile (set_pfile s f' x) f) = view (st_heap s) (the_pfile s f)).
  { intros f' x N. cbn [set_pfile st_heap]. apply (f_equal (view (st_heap s))). unfold the_pfile, set_pfile. cbn [st_files]. rewrite nth_put_at.
    destruct (Nat.eqb_spec f f') as [->|_]; [congruence|reflexivity]. }
  destruct o as [e|a e| |c|c|c|f' a|f' k|f'|f' c i args|f' c i i2 n args]; cbn [pstep uses] in *.
  - apply Quiet; [reflexivity|exact Logic.I|]. apply Grow.
  - apply Quiet; [reflexivity|exact Logic.I|]. cbn [st_heap]. apply view_same. intros k b H. unfold deref. rewrite nth_put_at.
    destruct (Nat.eqb_spec b a) as [->|_]; [|reflexivity]. exfalso. apply (Ss a e eq_refl f k). apply (i_lists _ _ I), in_mget; [apply Nd|exact H].
  - cbn in Lf. destruct (Nat.eq_dec f (files os)) as [->|Nf].
    + exists new_file, []. split; [apply AC_new; reflexivity|]. unfold the_pfile. cbn [st_heap st_files]. rewrite <- If, app_nth2, Nat.sub_diag by lia. reflexivity.
    + destruct (IH f) as (g & l & Ha & Hv); [lia|]. exists g, l. split; [apply AC_other; [exact Ha|exact Logic.I]|]. rewrite <- Hv.
      unfold the_pfile. cbn [st_heap st_files]. rewrite app_nth1 by lia. reflexivity.
  - cbn [catalog_of] in Read. destruct (read_po c) as [g| | |] eqn:E; [apply Read; reflexivity|..]; (apply Quiet; [cbn; rewrite E; reflexivity|exact Logic.I|reflexivity]).
  - cbn [catalog_of] in Read. destruct (read_pot c) as [g| | |] eqn:E; [apply Read; reflexivity|..]; (apply Quiet; [cbn; rewrite E; reflexivity|exact Logic.I|reflexivity]).
  - cbn [catalog_of] in Read. destruct (read_mo c) as [g| |] eqn:E; [apply Read; reflexivity|..]; (apply Quiet; [cbn; rewrite E; reflexivity|exact Logic.I|reflexivity]).
  - replace (a <? length (st_heap s)) with true by (symmetry; apply Nat.ltb_lt; rewrite (i_heap _ _ I); lia).
    destruct (Nat.eq_dec f' f) as [->|Nf]; [|apply Quiet; [reflexivity|exact Nf|apply Else, Nf]].
    apply (Touch _ (OAdd (deref (st_heap s) a))); [apply view_add|reflexivity|]. intros g l Ha. apply AC_add; [exact Ha|].
    apply (i_contents _ _ I), nth_error_nth'. rewrite (i_heap _ _ I). lia.
  - destruct (Nat.eq_dec f' f) as [->|Nf]; [|apply Quiet; [reflexivity|exact Nf|apply Else, Nf]].
    apply (Touch _ (OHeader k)); [apply view_get_header|reflexivity|]. intros; apply AC_header; assumption.
  - destruct (Nat.eq_dec f' f) as [->|Nf]; [|apply Quiet; [reflexivity|exact Nf|apply Else, Nf]].
    apply (Touch _ OLang); [apply view_lang|reflexivity|]. intros; apply AC_lang; assumption.
  - destruct (Nat.eq_dec f' f) as [->|Nf]; [|apply Quiet; [reflexivity|exact Nf|reflexivity]].
    cbn in Lf. destruct (IH f) as (g & l & Ha & Hv); [lia|]. exists g, (l ++ [OX c i args]). split; [apply AC_x, Ha|]. rewrite fold_left_app. exact Hv.
  - destruct (Nat.eq_dec f' f) as [->|Nf]; [|apply Quiet; [reflexivity|exact Nf|apply Else, Nf]].
    apply (Touch _ (OXn c i i2 n args)); [apply view_xn|reflexivity|]. intros; apply AC_xn; assumption.
Qed.

(** ** The header is read once *)
Lemma heads_init hp q h : q_headers q = Some h -> q_headers (p_init_header hp q) = Some h.
Proof. intros E. unfold p_init_header. rewrite E. exact E. Qed.
Lemma heads_plural hp q h : q_headers q = Some h -> q_headers (p_init_plural hp q) = Some h.
Proof. intros E. unfold p_init_plural. destruct (q_rule q); [exact E|]. unfold p_get_header. cbn [snd]. apply heads_init, E. Qed.
Lemma heads_add hp q a h : q_headers q = Some h -> q_headers (p_add hp q a) = Some h.
Proof. intros E. unfold p_add. destruct (is_header _); [apply heads_plural, heads_init|]; exact E. Qed.
Lemma heads_xn hp q c i i2 n args h : q_headers q = Some h -> q_headers (snd (p_xn64 fmt hp q c i i2 n args)) = Some h.
Proof.
  intros H. unfold p_xn64. destruct (mget _ _) as [a|]; [|exact H]. destruct (_ && _)%bool; [exact H|].
  pose proof (heads_plural hp q h H) as E. destruct (q_rule (p_init_plural hp q)) as [p|]; [|exact E].
  destruct (p_total p <=? 0)%Z; [exact E|]. destruct (_ || _ || _)%bool; [exact E|]. destruct (nth_error _ _) as [s|]; [|exact E]. destruct (is_empty s); exact E.
Qed.
Lemma heads_set s f x g h : q_headers (the_pfile s g) = Some h -> (q_headers (the_pfile s f) = Some h -> q_headers x = Some h) ->
  q_headers (the_pfile (set_pfile s f x) g) = Some h.
Proof.
  intros H K. unfold the_pfile, set_pfile in *. cbn [st_files]. rewrite nth_put_at. destruct (Nat.eqb_spec g f) as [->|_]; [|exact H].
  destruct (f <? _); cbn [andb]; [apply K|]; exact H.
Qed.
Lemma heads_app s f h l hp' : q_headers (the_pfile s f) = Some h -> q_headers (the_pfile {| st_heap := hp'; st_files := st_files s ++ l |} f) = Some h.
Proof.
  unfold the_pfile. cbn [st_files]. intros H. destruct (Nat.lt_ge_cases f (length (st_files s))) as [L|L]; [rewrite app_nth1 by exact L; exact H|].
  rewrite nth_overflow in H by exact L. discriminate.
Qed.
Lemma heads_step s o f h : q_headers (the_pfile s f) = Some h -> q_headers (the_pfile (pstep fmt s o) f) = Some h.
Proof.
  intros H. destruct o as [e|a e| |c|c|c|g a|g k|g|g c i args|g c i i2 n args]; cbn [pstep].
  - exact H.
  - exact H.
  - apply heads_app, H.
  - destruct (read_po c); try exact H. apply heads_app, H.
  - destruct (read_pot c); try exact H. apply heads_app, H.
  - destruct (read_mo c); try exact H. apply heads_app, H.
  - destruct (a <? _); [|exact H]. apply heads_set; [exact H|]. intros E. apply heads_add, E.
  - apply heads_set; [exact H|]. intros E. unfold p_get_header. cbn [snd]. apply heads_init, E.
  - apply heads_set; [exact H|]. intros E. unfold p_lang, p_get_header. cbn [snd]. apply heads_init, E.
  - exact H.
  - apply heads_set; [exact H|]. intros E. apply heads_xn, E.
Qed.
Lemma heads_runs os s f h : q_headers (the_pfile s f) = Some h -> q_headers (the_pfile (pruns os s) f) = Some h.
Proof. revert s. induction os as [|o os IH]; intros s H; [exact H|]. apply IH, heads_step, H. Qed.
End Runs.
