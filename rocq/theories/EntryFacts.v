(** Proofs about catalogs with entries behind pointers. *)
From Coq Require Import List ZArith Ascii Lia Permutation.
From Verif Require Import GoStr GoStrFacts GoMap GoMapFacts FileModel PoModel MoModel FileSpec EntryModel EntrySpec.
Import ListNotations.

(** ** Lists *)
Lemma put_at_length {X} n (x : X) l : length (put_at n x l) = length l.
Proof. revert n. induction l as [|y l IH]; intros [|n]; cbn [put_at length]; auto. Qed.
Lemma nth_put_at {X} n m (x d : X) l : nth m (put_at n x l) d = if Nat.eqb m n && (n <? length l)%nat then x else nth m l d.
Proof.
  revert n m. induction l as [|y l IH]; intros [|n] [|m]; cbn [put_at nth length]; try reflexivity.
  - rewrite Bool.andb_false_r. reflexivity.
  - rewrite IH. cbn [Nat.eqb]. replace (S n <? S (length l))%nat with (n <? length l)%nat by reflexivity. reflexivity.
Qed.
Lemma number_keys {V} n (m : gmap V) : keys (number n m) = keys m.
Proof. revert n. unfold keys. induction m as [|(k, v) m IH]; intros n; cbn; [reflexivity|]. f_equal. apply IH. Qed.
Lemma number_nth {V} n (m : gmap V) i k v : nth_error m i = Some (k, v) -> nth_error (number n m) i = Some (k, n + i).
Proof.
  revert n i. induction m as [|(k', v') m IH]; intros n [|i] H; cbn in *; try discriminate.
  - injection H as -> ->. rewrite Nat.add_0_r. reflexivity.
  - rewrite (IH (S n) i H). do 2 f_equal. lia.
Qed.
Lemma number_nth_inv {V} n (m : gmap V) i k a : nth_error (number n m) i = Some (k, a) -> a = n + i /\ exists v, nth_error m i = Some (k, v).
Proof.
  revert n i. induction m as [|(k', v') m IH]; intros n [|i] H; cbn in *; try discriminate.
  - injection H as -> ->. split; [lia|eauto].
  - destruct (IH _ _ H) as (-> & E). split; [lia|exact E].
Qed.

(** ** The catalog of the values *)
Definition view (hp : heap) (f : pfile) : file :=
  {| f_entries := map (fun x => (fst x, deref hp (snd x))) (q_entries f); f_headers := q_headers f; f_plural := q_rule f |}.
Lemma mget_view hp k m : mget k (map (fun x : bytes * nat => (fst x, deref hp (snd x))) m) = option_map (deref hp) (mget k m).
Proof. induction m as [|(k', a) m IH]; cbn; [reflexivity|]. destruct (beq k k'); [reflexivity|exact IH]. Qed.
Lemma mput_view hp k a m : map (fun x : bytes * nat => (fst x, deref hp (snd x))) (mput k a m) = mput k (deref hp a) (map (fun x => (fst x, deref hp (snd x))) m).
Proof. induction m as [|(k', b) m IH]; cbn; [reflexivity|]. destruct (beq k k'); cbn; [reflexivity|]. rewrite IH. reflexivity. Qed.
Lemma vals_view hp m : vals (map (fun x : bytes * nat => (fst x, deref hp (snd x))) m) = map (deref hp) (vals m).
Proof. unfold vals. rewrite !map_map. reflexivity. Qed.
Lemma view_init_header hp f : view hp (p_init_header hp f) = init_header (view hp f).
Proof.
  unfold p_init_header, init_header. cbn [view f_headers f_entries]. destruct (q_headers f) eqn:E; [reflexivity|].
  unfold view. cbn. rewrite mget_view. destruct (mget _ (q_entries f)); reflexivity.
Qed.
Lemma view_get_header hp k f : fst (p_get_header hp k f) = fst (get_header k (view hp f)) /\ view hp (snd (p_get_header hp k f)) = snd (get_header k (view hp f)).
Proof.
  unfold p_get_header, get_header. cbn [fst snd]. rewrite <- view_init_header. split; [reflexivity|reflexivity].
Qed.
Lemma view_init_plural hp f : view hp (p_init_plural hp f) = init_plural (view hp f).
Proof.
  unfold p_init_plural, init_plural. cbn [view f_plural]. destruct (q_rule f) eqn:E; [reflexivity|].
  destruct (view_get_header hp H_plural_forms f) as [E1 E2]. destruct (p_get_header hp H_plural_forms f) as [v f'].
  fold (view hp f). destruct (get_header H_plural_forms (view hp f)) as [v' f'']. cbn [fst snd] in *. subst. reflexivity.
Qed.
Lemma view_add hp f a : view hp (p_add hp f a) = add_entry (view hp f) (deref hp a).
Proof.
  unfold p_add, add_entry. destruct (is_header (deref hp a)).
  - rewrite view_init_plural, view_init_header. unfold view at 1. cbn. rewrite mput_view. reflexivity.
  - unfold view. cbn. rewrite mput_view. reflexivity.
Qed.
Lemma view_lang hp f : fst (p_lang hp f) = fst (lang (view hp f)) /\ view hp (snd (p_lang hp f)) = snd (lang (view hp f)).
Proof.
  unfold p_lang, lang. destruct (view_get_header hp H_language f) as [E1 E2]. destruct (p_get_header hp H_language f) as [v f'].
  destruct (get_header H_language (view hp f)) as [v' f'']. cbn [fst snd] in *. subst. auto.
Qed.
Section Lookups.
Context {A : Type}.
Variable fmt : bytes -> list A -> bytes.
Lemma view_x hp f c i args : p_x fmt hp f c i args = f_x fmt (view hp f) c i args.
Proof. unfold p_x, f_x. cbn [view f_entries]. rewrite mget_view. destruct (mget _ (q_entries f)); reflexivity. Qed.
Lemma view_xn hp f c i i2 n args :
  fst (p_xn64 fmt hp f c i i2 n args) = fst (f_xn64 fmt (view hp f) c i i2 n args)
  /\ view hp (snd (p_xn64 fmt hp f c i i2 n args)) = snd (f_xn64 fmt (view hp f) c i i2 n args).
Proof.
  unfold p_xn64, f_xn64. cbn [view f_entries]. rewrite mget_view. destruct (mget _ (q_entries f)) as [a|]; cbn [option_map]; [|split; reflexivity].
  destruct (is_empty (e_id2 (deref hp a)) && _); [split; reflexivity|]. fold (view hp f). rewrite <- (view_init_plural hp f).
  set (f' := p_init_plural hp f). cbn [view f_plural]. destruct (q_rule f') as [p|]; [|split; reflexivity].
  destruct (p_total p <=? 0)%Z; [split; reflexivity|].
  destruct (_ || _ || _); [split; reflexivity|]. destruct (nth_error _ _) as [s|]; [|split; reflexivity]. destruct (is_empty s); split; reflexivity.
Qed.
End Lookups.
Lemma view_ordered hp l : p_ordered hp l <-> sorted_by_key (map (deref hp) l).
Proof.
  induction l as [|a l IH]; cbn [p_ordered map sorted_by_key]; [tauto|]. rewrite IH. split; intros [H1 H2]; (split; [|exact H2]).
  - intros x I. apply in_map_iff in I as (b & <- & I). apply H1, I.
  - intros b I. apply H1, in_map, I.
Qed.
(** the values of the addresses handed out are the entries handed out by the catalog of values *)
Lemma view_sorted hp f l : p_sorted hp f l -> sorted_entries (view hp f) (map (deref hp) l).
Proof.
  intros [P O]. split; [|apply view_ordered, O]. cbn [view f_entries]. rewrite vals_view. apply Permutation_map, P.
Qed.
Lemma sorted_view hp f l : sorted_entries (view hp f) l -> exists al, p_sorted hp f al /\ l = map (deref hp) al.
Proof.
  intros [P O]. cbn [view f_entries] in P. rewrite vals_view in P. apply Permutation_map_inv in P as (al & -> & P).
  exists al. split; [|reflexivity]. split; [apply Permutation_sym, P|apply view_ordered, O].
Qed.
Lemma view_saves hp f isp out :
  (p_saves_po hp isp f out <-> saves_po isp (view hp f) out)
  /\ (p_saves_pot hp isp f out <-> saves_pot isp (view hp f) out)
  /\ (p_saves_mo hp f out <-> saves_mo (view hp f) out).
Proof.
  unfold p_saves_po, p_saves_pot, p_saves_mo, saves_po, saves_pot, saves_mo.
  split; [|split]; (split; [intros (l & S1 & ->); exists (map (deref hp) l); split; [apply view_sorted, S1|rewrite ?map_map; reflexivity]
    |intros (l & S1 & ->); apply sorted_view in S1 as (al & S1 & ->); exists al; split; [exact S1|rewrite ?map_map; reflexivity]]).
Qed.
