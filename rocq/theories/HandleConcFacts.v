(** Facts about HandleConcModel: a goroutine that writes only memory it
    allocated itself sees the same thing whatever the others do. *)
From Coq Require Import Lia Arith.
From Verif Require Import GoStr GoMap FileModel TransModel TransSpec TransFacts TransQuietFacts ConcModel ConcSpec ConcFacts HandleConcModel HandleConcSpec.
Local Open Scope nat_scope.

Section Facts.
Context {A : Type}.
Variable norm : bytes -> bytes.
Notation state := (@state A).
Variable s0 : state.
Implicit Types s : state.
Notation nts := (length (s_ts s0)).
Notation nm := (length (s_maps s0)).
Notation ntr := (length (s_trs s0)).
Notation nf := (length (s_files s0)).
(** the handles that belong to some goroutine at the start; the others, and the
    maps of the others, are not written *)
Variable taken : list nat.
Definition frz_ts (h : nat) : bool := (h <? nts) && negb (existsb (Nat.eqb h) taken).
Definition frz_map (m : nat) : bool := (m <? nm) && negb (existsb (fun h => t_map (the_ts s0 h) =? m) taken).

(** ** The memory of one goroutine: what it has allocated *)
Record lheap := { l_ts : nat -> option tsrec; l_map : nat -> option (gmap nat); l_tr : nat -> option (@translation A); l_file : nat -> option file }.
Definition fset {X} (f : nat -> X) (n : nat) (x : X) : nat -> X := fun m => if m =? n then x else f m.
Lemma fset_same {X} (f : nat -> X) n x : fset f n x n = x.
Proof. unfold fset. rewrite Nat.eqb_refl. reflexivity. Qed.
Lemma fset_other {X} (f : nat -> X) n x m : m <> n -> fset f n x m = f m.
Proof. intros H. unfold fset. rewrite (proj2 (Nat.eqb_neq m n) H). reflexivity. Qed.
Definition put_ts (L : lheap) (h : nat) (x : tsrec) : lheap := 
  {| l_ts := fset (l_ts L) h (Some x); l_map := l_map L; l_tr := l_tr L; l_file := l_file L |}.
Definition put_map (L : lheap) (m : nat) (g : gmap nat) : lheap := 
  {| l_ts := l_ts L; l_map := fset (l_map L) m (Some g); l_tr := l_tr L; l_file := l_file L |}.
(** a loaded translation at [t] and its catalogs from [a] on *)
Definition put_loaded (L : lheap) (t a : nat) (x : translation) (fs : list file) : lheap :=
  {| l_ts := l_ts L; l_map := l_map L; l_tr := fset (l_tr L) t (Some x);
     l_file := fun b => if b <? a then l_file L b else nth_error fs (b - a) |}.
Definition own_ts (L : lheap) (h : nat) : option tsrec := if frz_ts h then None else l_ts L h.
Definition own_map (L : lheap) (m : nat) : option (gmap nat) := if frz_map m then None else l_map L m.
Definition ts_at (L : lheap) (h : nat) : option tsrec := if frz_ts h then Some (the_ts s0 h) else l_ts L h.
Definition map_at (L : lheap) (m : nat) : option (gmap nat) := if frz_map m then Some (the_map s0 m) else l_map L m.
Definition tr_at (L : lheap) (t : nat) : option translation := if t <? ntr then Some (the_tr s0 t) else l_tr L t.
Definition file_at (L : lheap) (a : nat) : option file := if a <? nf then Some (the_file s0 a) else l_file L a.
Definition see (L : lheap) (p : place) : option (@holds A p) :=
  match p return option (holds p) with
  | PGlobal => Some (s_global s0)
  | PLocale h => option_map t_locale (ts_at L h)
  | PDomain h => option_map t_domain (ts_at L h)
  | PSource h => option_map t_source (ts_at L h)
  | PDomains h => option_map t_map (ts_at L h)
  | PMap m => map_at L m
  | PLangs t => option_map (@tr_langs A) (tr_at L t)
  | PEntries a => option_map f_entries (file_at L a)
  | PHeaders a => option_map f_headers (file_at L a)
  | PPlural a => option_map f_plural (file_at L a)
  end.
Definition change (L : lheap) (p : place) : (@holds A p -> @holds A p) -> option lheap :=
  match p return (holds p -> holds p) -> option lheap with
  | PLocale h => fun f => option_map (fun r => put_ts L h (with_locale r (f (t_locale r)))) (own_ts L h)
  | PDomain h => fun f => option_map (fun r => put_ts L h (with_domain r (f (t_domain r)))) (own_ts L h)
  | PSource h => fun f => option_map (fun r => put_ts L h (with_source r (f (t_source r)))) (own_ts L h)
  | PDomains h => fun f => option_map (fun r => put_ts L h (with_map r (f (t_map r)))) (own_ts L h)
  | PMap m => fun f => option_map (fun g => put_map L m (f g)) (own_map L m)
  | _ => fun _ => None
  end.
(** [p] ends with [r], reads only what was there at the start or is its own, and
    writes only what is its own *)
Fixpoint fine {R} (r : R) (p : @gprog A R) : lheap -> Prop :=
  match p with
  | GRet x => fun _ => x = r
  | Rd p k => fun L => match see L p with Some v => fine r (k v) L | None => False end
  | Wr p f k => fun L => match change L p f with Some L' => fine r k L' | None => False end
  | NewTs x k => fun L => forall h, nts <= h -> l_ts L h = None -> fine r (k h) (put_ts L h x)
  | NewMap g k => fun L => forall m, nm <= m -> l_map L m = None -> fine r (k m) (put_map L m g)
  | Load d wm wp k => fun L => forall t a, ntr <= t -> l_tr L t = None -> nf <= a -> (forall b, a <= b -> l_file L b = None) ->
      let cs := catalogs (B ".mo") wm ++ catalogs (B ".po") wp in
      fine r (k (if existsb okb (hits (B ".mo") wm ++ hits (B ".po") wp) then Some t else None))
        (put_loaded L t a {| tr_domain := d; tr_langs := add_all norm a cs [] |} (map init_header cs))
  end.

(** ** The memory of all goroutines: [Lf j] is that of the [j]th *)
Record inv (s : state) (Lf : nat -> lheap) (ow om : nat -> nat) : Prop := {
  i_global : s_global s = s_global s0;
  i_ntr : ntr <= length (s_trs s);
  i_nf : nf <= length (s_files s);
  i_nts : nts <= length (s_ts s);
  i_nm : nm <= length (s_maps s);
  i_trs : forall t, t < ntr -> the_tr s t = the_tr s0 t;
  i_files : forall a, a < nf -> the_file s a = the_file s0 a;
  i_ts : forall h, frz_ts h = true -> the_ts s h = the_ts s0 h;
  i_maps : forall m, frz_map m = true -> the_map s m = the_map s0 m;
  i_own : forall j h x, l_ts (Lf j) h = Some x -> frz_ts h = false /\ h < length (s_ts s) /\ the_ts s h = x /\ ow h = j;
  i_ownm : forall j m g, l_map (Lf j) m = Some g -> frz_map m = false /\ m < length (s_maps s) /\ the_map s m = g /\ om m = j;
  i_owntr : forall j t x, l_tr (Lf j) t = Some x -> ntr <= t < length (s_trs s) /\ the_tr s t = x;
  i_ownf : forall j a x, l_file (Lf j) a = Some x -> nf <= a < length (s_files s) /\ the_file s a = x }.
Lemma frz_ts_lt h : frz_ts h = true -> h < nts.
Proof. intros H. apply andb_true_iff in H as [H _]. apply Nat.ltb_lt, H. Qed.
Lemma frz_map_lt m : frz_map m = true -> m < nm.
Proof. intros H. apply andb_true_iff in H as [H _]. apply Nat.ltb_lt, H. Qed.
Lemma frz_ts_ge h : nts <= h -> frz_ts h = false.
Proof. intros H. unfold frz_ts. rewrite (proj2 (Nat.ltb_ge h nts) H). reflexivity. Qed.
Lemma frz_map_ge m : nm <= m -> frz_map m = false.
Proof. intros H. unfold frz_map. rewrite (proj2 (Nat.ltb_ge m nm) H). reflexivity. Qed.
Lemma inv_ext s Lf Lf' ow om : (forall j, Lf' j = Lf j) -> inv s Lf ow om -> inv s Lf' ow om.
Proof.
  intros E [i1 i2 i3 i4 i5 i6 i7 i8 i9 i10 i11 i12 i13]. constructor; try assumption; intros j h x H; rewrite E in H; eauto.
Qed.
Lemma see_get s Lf ow om j p v : inv s Lf ow om -> see (Lf j) p = Some v -> get s p = v.
Proof.
  intros I E.
  assert (T : forall h x, ts_at (Lf j) h = Some x -> the_ts s h = x).
  { intros h x. unfold ts_at. destruct (frz_ts h) eqn:Eh; [intros [= <-]; apply (i_ts _ _ _ _ I), Eh|]. intros H. apply (i_own _ _ _ _ I _ _ _ H). }
  assert (M : forall m x, map_at (Lf j) m = Some x -> the_map s m = x).
  { intros m x. unfold map_at. destruct (frz_map m) eqn:Eh; [intros [= <-]; apply (i_maps _ _ _ _ I), Eh|]. intros H. apply (i_ownm _ _ _ _ I _ _ _ H). }
  assert (Tr : forall t x, tr_at (Lf j) t = Some x -> the_tr s t = x).
  { intros t x. unfold tr_at. destruct (t <? ntr) eqn:Eh; [intros [= <-]; apply (i_trs _ _ _ _ I), Nat.ltb_lt, Eh|]. intros H. apply (i_owntr _ _ _ _ I _ _ _ H). }
  assert (Fi : forall a x, file_at (Lf j) a = Some x -> the_file s a = x).
  { intros a x. unfold file_at. destruct (a <? nf) eqn:Eh; [intros [= <-]; apply (i_files _ _ _ _ I), Nat.ltb_lt, Eh|]. intros H. apply (i_ownf _ _ _ _ I _ _ _ H). }
  destruct p; cbn [see get holds] in *;
    try (destruct (ts_at (Lf j) h) as [x|] eqn:Ex; cbn [option_map] in E; [|discriminate]; injection E as <-; rewrite (T _ _ Ex); reflexivity);
    try (destruct (file_at (Lf j) a) as [x|] eqn:Ex; cbn [option_map] in E; [|discriminate]; injection E as <-; rewrite (Fi _ _ Ex); reflexivity).
  - injection E as <-. apply (i_global _ _ _ _ I).
  - apply M, E.
  - destruct (tr_at (Lf j) t) as [x|] eqn:Ex; cbn [option_map] in E; [|discriminate]; injection E as <-; rewrite (Tr _ _ Ex); reflexivity.
Qed.
Lemma the_ts_set s h r x : h < length (s_ts s) -> the_ts (set_ts s h r) x = if x =? h then r else the_ts s x.
Proof.
  intros H. unfold the_ts, set_ts. cbn [s_ts]. destruct (x =? h) eqn:E.
  - apply Nat.eqb_eq in E as ->. apply nth_upd_same, H.
  - apply nth_upd_other. intros ->. rewrite Nat.eqb_refl in E. discriminate.
Qed.
Lemma the_map_set s m g x : m < length (s_maps s) -> the_map (@set_map A s m g) x = if x =? m then g else the_map s x.
Proof.
  intros H. unfold the_map, set_map. cbn [s_maps]. destruct (x =? m) eqn:E.
  - apply Nat.eqb_eq in E as ->. apply nth_upd_same, H.
  - apply nth_upd_other. intros ->. rewrite Nat.eqb_refl in E. discriminate.
Qed.
Lemma fset_l {X} (P : lheap -> X) (Lf : nat -> lheap) j L j' : P L = P (Lf j) -> P (fset Lf j L j') = P (Lf j').
Proof. intros E. unfold fset. destruct (j' =? j) eqn:Ej; [apply Nat.eqb_eq in Ej as ->; exact E|reflexivity]. Qed.
Lemma inv_set_ts s Lf ow om j h x y : inv s Lf ow om -> own_ts (Lf j) h = Some x ->
  inv (set_ts s h y) (fset Lf j (put_ts (Lf j) h y)) ow om.
Proof.
  intros [i1 i2 i3 i4 i5 i6 i7 i8 i9 i10 i11 i12 i13] E. unfold own_ts in E. destruct (frz_ts h) eqn:Eh; [discriminate|].
  destruct (i10 _ _ _ E) as (B1 & B2 & B3 & B4).
  constructor; try assumption.
  - cbn [set_ts s_ts]. rewrite upd_length. exact i4.
  - intros h' H. rewrite the_ts_set by lia. destruct (h' =? h) eqn:Q; [apply Nat.eqb_eq in Q; congruence|]. apply i8, H.
  - intros j' h' x' H. cbn [set_ts s_ts]. rewrite upd_length. fold (set_ts s h y). rewrite the_ts_set by lia.
    unfold fset in H. destruct (j' =? j) eqn:Ej.
    + apply Nat.eqb_eq in Ej as ->. cbn [put_ts l_ts] in H. unfold fset in H. destruct (h' =? h) eqn:Q.
      * apply Nat.eqb_eq in Q as ->. injection H as <-. auto.
      * apply (i10 _ _ _ H).
    + destruct (i10 _ _ _ H) as (C1 & C2 & C3 & C4). destruct (h' =? h) eqn:Q; [|auto]. apply Nat.eqb_eq in Q. apply Nat.eqb_neq in Ej. congruence.
  - intros j' m g H. rewrite (fset_l l_map) in H by reflexivity. apply (i11 _ _ _ H).
  - intros j' m g H. rewrite (fset_l l_tr) in H by reflexivity. apply (i12 _ _ _ H).
  - intros j' m g H. rewrite (fset_l l_file) in H by reflexivity. apply (i13 _ _ _ H).
Qed.
Lemma inv_set_map s Lf ow om j h x y : inv s Lf ow om -> own_map (Lf j) h = Some x ->
  inv (set_map s h y) (fset Lf j (put_map (Lf j) h y)) ow om.
Proof.
  intros [i1 i2 i3 i4 i5 i6 i7 i8 i9 i10 i11 i12 i13] E. unfold own_map in E. destruct (frz_map h) eqn:Eh; [discriminate|].
  destruct (i11 _ _ _ E) as (B1 & B2 & B3 & B4).
  constructor; try assumption.
  - cbn [set_map s_maps]. rewrite upd_length. exact i5.
  - intros h' H. rewrite the_map_set by lia. destruct (h' =? h) eqn:Q; [apply Nat.eqb_eq in Q; congruence|]. apply i9, H.
  - intros j' m g H. rewrite (fset_l l_ts) in H by reflexivity. apply (i10 _ _ _ H).
  - intros j' h' x' H. cbn [set_map s_maps]. rewrite upd_length. fold (set_map s h y). rewrite the_map_set by lia.
    unfold fset in H. destruct (j' =? j) eqn:Ej.
    + apply Nat.eqb_eq in Ej as ->. cbn [put_map l_map] in H. unfold fset in H. destruct (h' =? h) eqn:Q.
      * apply Nat.eqb_eq in Q as ->. injection H as <-. auto.
      * apply (i11 _ _ _ H).
    + destruct (i11 _ _ _ H) as (C1 & C2 & C3 & C4). destruct (h' =? h) eqn:Q; [|auto]. apply Nat.eqb_eq in Q. apply Nat.eqb_neq in Ej. congruence.
  - intros j' m g H. rewrite (fset_l l_tr) in H by reflexivity. apply (i12 _ _ _ H).
  - intros j' m g H. rewrite (fset_l l_file) in H by reflexivity. apply (i13 _ _ _ H).
Qed.
Lemma change_put s Lf ow om j p f L' : inv s Lf ow om -> change (Lf j) p f = Some L' -> inv (put s p (f (get s p))) (fset Lf j L') ow om.
Proof.
  intros I E.
  assert (T : forall h x, own_ts (Lf j) h = Some x -> the_ts s h = x).
  { intros h x. unfold own_ts. destruct (frz_ts h); [discriminate|]. intros H. apply (i_own _ _ _ _ I _ _ _ H). }
  destruct p; cbn [change put get holds] in *; try discriminate;
    try (destruct (own_ts (Lf j) h) as [x|] eqn:Ex; cbn [option_map] in E; [|discriminate]; injection E as <-;
         rewrite (T _ _ Ex); apply (inv_set_ts _ _ _ _ _ _ x); assumption).
  destruct (own_map (Lf j) m) as [x|] eqn:Ex; cbn [option_map] in E; [|discriminate]. injection E as <-.
  assert (Q : the_map s m = x).
  { unfold own_map in Ex. destruct (frz_map m); [discriminate|]. apply (i_ownm _ _ _ _ I _ _ _ Ex). }
  rewrite Q. apply (inv_set_map _ _ _ _ _ _ x); assumption.
Qed.
Lemma inv_new_ts s Lf ow om j y : inv s Lf ow om ->
  nts <= length (s_ts s) /\ l_ts (Lf j) (length (s_ts s)) = None
  /\ inv (snd (new_ts s y)) (fset Lf j (put_ts (Lf j) (length (s_ts s)) y)) (fset ow (length (s_ts s)) j) om.
Proof.
  intros [i1 i2 i3 i4 i5 i6 i7 i8 i9 i10 i11 i12 i13]. split; [exact i4|]. split.
  { destruct (l_ts (Lf j) (length (s_ts s))) as [x|] eqn:E; [|reflexivity]. destruct (i10 _ _ _ E). lia. }
  assert (N : forall h, h < length (s_ts s) -> the_ts (snd (new_ts s y)) h = the_ts s h) by (intros h H; apply nth_app_old, H).
  constructor; try assumption.
  - cbn [new_ts snd s_ts]. rewrite app_length. lia.
  - intros h H. rewrite N by (apply frz_ts_lt in H; lia). apply i8, H.
  - intros j' h x H. cbn [new_ts snd s_ts]. rewrite app_length. cbn [length]. fold (snd (new_ts s y)).
    assert (K : l_ts (Lf j') h = Some x -> frz_ts h = false /\ h < length (s_ts s) + 1 /\ the_ts (snd (new_ts s y)) h = x /\ fset ow (length (s_ts s)) j h = j').
    { intros H'. destruct (i10 _ _ _ H') as (C0 & C1 & C2 & C3). rewrite N by lia. rewrite fset_other by lia. split; [exact C0|]. split; [lia|auto]. }
    unfold fset in H at 1. destruct (j' =? j) eqn:Ej; [|exact (K H)]. apply Nat.eqb_eq in Ej as ->.
    cbn [put_ts l_ts] in H. unfold fset in H. destruct (h =? length (s_ts s)) eqn:Q; [|exact (K H)].
    apply Nat.eqb_eq in Q as ->. injection H as <-. split; [apply frz_ts_ge, i4|]. split; [lia|]. split; [apply nth_new|apply fset_same].
  - intros j' m g H. rewrite (fset_l l_map) in H by reflexivity. apply (i11 _ _ _ H).
  - intros j' m g H. rewrite (fset_l l_tr) in H by reflexivity. apply (i12 _ _ _ H).
  - intros j' m g H. rewrite (fset_l l_file) in H by reflexivity. apply (i13 _ _ _ H).
Qed.
Lemma inv_new_map s Lf ow om j y : inv s Lf ow om ->
  nm <= length (s_maps s) /\ l_map (Lf j) (length (s_maps s)) = None
  /\ inv (snd (new_map s y)) (fset Lf j (put_map (Lf j) (length (s_maps s)) y)) ow (fset om (length (s_maps s)) j).
Proof.
  intros [i1 i2 i3 i4 i5 i6 i7 i8 i9 i10 i11 i12 i13]. split; [exact i5|]. split.
  { destruct (l_map (Lf j) (length (s_maps s))) as [x|] eqn:E; [|reflexivity]. destruct (i11 _ _ _ E). lia. }
  assert (N : forall h, h < length (s_maps s) -> the_map (snd (new_map s y)) h = the_map s h) by (intros h H; apply nth_app_old, H).
  constructor; try assumption.
  - cbn [new_map snd s_maps]. rewrite app_length. lia.
  - intros h H. rewrite N by (apply frz_map_lt in H; lia). apply i9, H.
  - intros j' m g H. rewrite (fset_l l_ts) in H by reflexivity. apply (i10 _ _ _ H).
  - intros j' h x H. cbn [new_map snd s_maps]. rewrite app_length. cbn [length]. fold (snd (new_map s y)).
    assert (K : l_map (Lf j') h = Some x -> frz_map h = false /\ h < length (s_maps s) + 1 /\ the_map (snd (new_map s y)) h = x /\ fset om (length (s_maps s)) j h = j').
    { intros H'. destruct (i11 _ _ _ H') as (C0 & C1 & C2 & C3). rewrite N by lia. rewrite fset_other by lia. split; [exact C0|]. split; [lia|auto]. }
    unfold fset in H at 1. destruct (j' =? j) eqn:Ej; [|exact (K H)]. apply Nat.eqb_eq in Ej as ->.
    cbn [put_map l_map] in H. unfold fset in H. destruct (h =? length (s_maps s)) eqn:Q; [|exact (K H)].
    apply Nat.eqb_eq in Q as ->. injection H as <-. split; [apply frz_map_ge, i5|]. split; [lia|]. split; [apply nth_new|apply fset_same].
  - intros j' m g H. rewrite (fset_l l_tr) in H by reflexivity. apply (i12 _ _ _ H).
  - intros j' m g H. rewrite (fset_l l_file) in H by reflexivity. apply (i13 _ _ _ H).
Qed.
Lemma new_tr_loaded s d cs :
  let s' := with_files norm (snd (new_translation s d)) (length (s_trs s)) cs in
  s_ts s' = s_ts s /\ s_maps s' = s_maps s /\ s_global s' = s_global s
  /\ s_trs s' = s_trs s ++ [{| tr_domain := d; tr_langs := add_all norm (length (s_files s)) cs [] |}]
  /\ s_files s' = s_files s ++ map init_header cs.
Proof.
  cbn zeta. unfold with_files, new_translation, new_tr. cbn [snd s_ts s_maps s_trs s_files s_global the_tr].
  rewrite upd_last. unfold the_tr. cbn [s_trs]. rewrite nth_new. repeat split.
Qed.
Lemma inv_load s Lf ow om j d cs : inv s Lf ow om ->
  ntr <= length (s_trs s) /\ l_tr (Lf j) (length (s_trs s)) = None /\ nf <= length (s_files s)
  /\ (forall b, length (s_files s) <= b -> l_file (Lf j) b = None)
  /\ inv (with_files norm (snd (new_translation s d)) (length (s_trs s)) cs)
       (fset Lf j (put_loaded (Lf j) (length (s_trs s)) (length (s_files s)) {| tr_domain := d; tr_langs := add_all norm (length (s_files s)) cs [] |} (map init_header cs)))
       ow om.
Proof.
  intros [i1 i2 i3 i4 i5 i6 i7 i8 i9 i10 i11 i12 i13]. split; [exact i2|]. split.
  { destruct (l_tr (Lf j) (length (s_trs s))) as [x|] eqn:E; [|reflexivity]. destruct (i12 _ _ _ E). lia. }
  split; [exact i3|]. split.
  { intros b Hb. destruct (l_file (Lf j) b) as [x|] eqn:E; [|reflexivity]. destruct (i13 _ _ _ E). lia. }
  destruct (new_tr_loaded s d cs) as (E1 & E2 & E3 & E4 & E5). set (s' := with_files norm _ _ cs) in *.
  assert (Nt : forall t, t < length (s_trs s) -> the_tr s' t = the_tr s t) by (intros t H; unfold the_tr; rewrite E4; apply nth_app_old, H).
  assert (Nf : forall a, a < length (s_files s) -> the_file s' a = the_file s a) by (intros a H; unfold the_file; rewrite E5; apply nth_app_old, H).
  constructor.
  - rewrite E3. exact i1.
  - rewrite E4, app_length. lia.
  - rewrite E5, app_length. lia.
  - rewrite E1. exact i4.
  - rewrite E2. exact i5.
  - intros t H. rewrite Nt by lia. apply i6, H.
  - intros a H. rewrite Nf by lia. apply i7, H.
  - intros h H. unfold the_ts. rewrite E1. apply i8, H.
  - intros m H. unfold the_map. rewrite E2. apply i9, H.
  - intros j' h x H. rewrite (fset_l l_ts) in H by reflexivity. unfold the_ts. rewrite E1. apply (i10 _ _ _ H).
  - intros j' m g H. rewrite (fset_l l_map) in H by reflexivity. unfold the_map. rewrite E2. apply (i11 _ _ _ H).
  - intros j' t x H. rewrite E4, app_length. cbn [length].
    assert (K : l_tr (Lf j') t = Some x -> ntr <= t < length (s_trs s) + 1 /\ the_tr s' t = x).
    { intros H'. destruct (i12 _ _ _ H') as (C1 & C2). rewrite Nt by lia. split; [lia|exact C2]. }
    unfold fset in H at 1. destruct (j' =? j) eqn:Ej; [|exact (K H)]. apply Nat.eqb_eq in Ej as ->.
    cbn [put_loaded l_tr] in H. unfold fset in H. destruct (t =? length (s_trs s)) eqn:Q; [|exact (K H)].
    apply Nat.eqb_eq in Q as ->. injection H as <-. split; [lia|]. unfold the_tr. rewrite E4. apply nth_new.
  - intros j' b x H. rewrite E5, app_length, map_length.
    assert (K : l_file (Lf j') b = Some x -> nf <= b < length (s_files s) + length cs /\ the_file s' b = x).
    { intros H'. destruct (i13 _ _ _ H') as (C1 & C2). rewrite Nf by lia. split; [lia|exact C2]. }
    unfold fset in H at 1. destruct (j' =? j) eqn:Ej; [|exact (K H)]. apply Nat.eqb_eq in Ej as ->.
    cbn [put_loaded l_file] in H. destruct (b <? length (s_files s)) eqn:Q; [exact (K H)|]. apply Nat.ltb_ge in Q.
    assert (Lb : b - length (s_files s) < length (map init_header cs)) by (apply nth_error_Some; congruence). rewrite map_length in Lb.
    split; [lia|]. unfold the_file. rewrite E5, app_nth2 by exact Q. apply nth_error_nth, H.
Qed.
Lemma fine_step {R} (r : R) s Lf ow om j p s' p' : inv s Lf ow om -> fine r p (Lf j) -> gstep norm s p = Some (s', p') ->
  exists L' ow' om', inv s' (fset Lf j L') ow' om' /\ fine r p' L'.
Proof.
  intros I F E. destruct p as [x|p k|p f k|x k|g k|d wm wp k]; cbn [gstep fine] in *; try discriminate.
  - injection E as <- <-. exists (Lf j), ow, om. split.
    { apply inv_ext with Lf; [|exact I]. intros i. unfold fset. destruct (i =? j) eqn:Q; [apply Nat.eqb_eq in Q as ->|]; reflexivity. }
    destruct (see (Lf j) p) as [v|] eqn:Ev; [|contradiction]. rewrite (see_get _ _ _ _ _ _ _ I Ev). exact F.
  - injection E as <- <-. destruct (change (Lf j) p f) as [L'|] eqn:Ec; [|contradiction]. exists L', ow, om.
    split; [apply change_put; assumption|exact F].
  - injection E as <- <-. destruct (inv_new_ts s Lf ow om j x I) as (H1 & H2 & H3). eexists _, _, _. split; [exact H3|]. apply F; assumption.
  - injection E as <- <-. destruct (inv_new_map s Lf ow om j g I) as (H1 & H2 & H3). eexists _, _, _. split; [exact H3|]. apply F; assumption.
  - destruct (new_translation s d) as [t s1] eqn:Et. assert (Es : s1 = snd (new_translation s d)) by (rewrite Et; reflexivity).
    assert (Q : t = length (s_trs s)) by (unfold new_translation, new_tr in Et; congruence). subst t.
    rewrite load_fs_spec in E by (rewrite Es; cbn [new_translation new_tr snd s_trs]; rewrite app_length; cbn [length]; lia).
    injection E as <- <-. rewrite Es.
    destruct (inv_load s Lf ow om j d (catalogs (B ".mo") wm ++ catalogs (B ".po") wp) I) as (H1 & H2 & H3 & H4 & H5).
    eexists _, _, _. split; [exact H5|]. apply F; assumption.
Qed.
Definition all_fine {R} (rs : list R) (s : state) (ps : list (@gprog A R)) : Prop :=
  length ps = length rs /\ exists Lf ow om, inv s Lf ow om /\ forall j p r, nth_error ps j = Some p -> nth_error rs j = Some r -> fine r p (Lf j).
Lemma all_fine_steps {R} (rs : list R) c c' : gsteps norm c c' -> all_fine rs (fst c) (snd c) -> all_fine rs (fst c') (snd c').
Proof.
  induction 1 as [c|c s a p b s' p' St IH E]; intros H; [exact H|]. specialize (IH H). cbn [fst snd] in *.
  destruct IH as (Hl & Lf & ow & om & I & F). split; [rewrite <- Hl, !app_length; reflexivity|].
  assert (Ln : nth_error (a ++ p :: b) (length a) = Some p) by (rewrite nth_error_app2, Nat.sub_diag by lia; reflexivity).
  destruct (nth_error rs (length a)) as [r|] eqn:Er.
  2: { apply nth_error_None in Er. rewrite <- Hl, app_length in Er. cbn [length] in Er. lia. }
  destruct (fine_step r s Lf ow om (length a) p s' p' I (F _ _ _ Ln Er) E) as (L' & ow' & om' & I' & F').
  exists (fset Lf (length a) L'), ow', om'. split; [exact I'|]. intros j q r' Ej Ejr. unfold fset. destruct (j =? length a) eqn:Q.
  - apply Nat.eqb_eq in Q as ->. rewrite nth_error_app2, Nat.sub_diag in Ej by lia. cbn [nth_error] in Ej. congruence.
  - apply Nat.eqb_neq in Q. apply (F j); [|exact Ejr]. destruct (Nat.lt_ge_cases j (length a)) as [Lt|Ge].
    + rewrite nth_error_app1 in * by exact Lt. exact Ej.
    + rewrite nth_error_app2 in * by exact Ge. destruct (j - length a) as [|i] eqn:Ei; [lia|]. exact Ej.
Qed.
(** the memory of a goroutine that has the handles [own] at the start *)
Definition start_heap (own : list nat) : lheap :=
  {| l_ts := fun h => if existsb (Nat.eqb h) own then Some (the_ts s0 h) else None;
     l_map := fun m => if existsb (fun h => t_map (the_ts s0 h) =? m) own then Some (the_map s0 m) else None;
     l_tr := fun _ => None; l_file := fun _ => None |}.
Definition heap_of (owns : list (list nat)) (j : nat) : lheap := start_heap (nth j owns []).
Lemma in_eqb h own : existsb (Nat.eqb h) own = true <-> In h own.
Proof. rewrite existsb_exists. split; [intros (x & Hx & E); apply Nat.eqb_eq in E as ->; exact Hx|intros H; exists h; split; [exact H|apply Nat.eqb_refl]]. Qed.
Lemma nodup_concat (owns : list (list nat)) : NoDup (concat owns) -> forall i j h, In h (nth i owns []) -> In h (nth j owns []) -> i = j.
Proof.
  induction owns as [|o owns IH]; intros N i j h Hi Hj; [destruct i; destruct Hi|]. cbn [concat] in N.
  assert (D : forall k, In h o -> In h (nth k owns []) -> False).
  { intros k H1 H2. apply in_split in H1 as (a & b & ->). rewrite <- app_assoc in N. cbn [app] in N. apply NoDup_remove_2 in N. apply N.
    apply in_or_app. right. apply in_or_app. right. apply in_concat. exists (nth k owns []). split; [|exact H2].
    destruct (Nat.lt_ge_cases k (length owns)) as [L|L]; [apply nth_In, L|]. rewrite nth_overflow in H2 by exact L. destruct H2. }
  assert (N' : NoDup (concat owns)) by (clear - N; induction o as [|x o IH]; [exact N|inversion N; auto]).
  destruct i as [|i], j as [|j]; cbn [nth] in *; [reflexivity|exfalso; eauto|exfalso; eauto|]. f_equal. apply (IH N' i j h Hi Hj).
Qed.
Lemma nth_concat_in (owns : list (list nat)) j h : In h (nth j owns []) -> In h (concat owns).
Proof.
  intros H. apply in_concat. exists (nth j owns []). split; [|exact H].
  destruct (Nat.lt_ge_cases j (length owns)) as [L|L]; [apply nth_In, L|]. rewrite nth_overflow in H by exact L. destruct H.
Qed.
(** the goroutine, if any, that has a handle of a list of lists *)
Fixpoint owner (P : nat -> bool) (owns : list (list nat)) : nat :=
  match owns with [] => 0 | o :: r => if existsb P o then 0 else S (owner P r) end.
Lemma owner_is P owns j : existsb P (nth j owns []) = true -> (forall i, existsb P (nth i owns []) = true -> i = j) -> owner P owns = j.
Proof.
  revert j. induction owns as [|o owns IH]; intros j H U; [destruct j; discriminate|]. cbn [owner].
  destruct (existsb P o) eqn:E; [apply (U 0 E)|]. destruct j as [|j]; cbn [nth] in H; [congruence|]. f_equal. apply IH; [exact H|].
  intros i Hi. specialize (U (S i) Hi). lia.
Qed.
Lemma inv_start owns : wf s0 -> Forall (fun h => h < nts) taken -> NoDup (concat owns) -> (forall h, In h (concat owns) -> In h taken) ->
  exists ow om, inv s0 (heap_of owns) ow om.
Proof.
  intros W T N U. exists (fun h => owner (Nat.eqb h) owns), (fun m => owner (fun h => t_map (the_ts s0 h) =? m) owns). constructor; auto.
  - intros j h x H. unfold heap_of, start_heap in H. cbn [l_ts] in H. destruct (existsb (Nat.eqb h) (nth j owns [])) eqn:E; [|discriminate]. injection H as <-.
    assert (Ih : In h (nth j owns [])) by (apply in_eqb, E). pose proof (U h (nth_concat_in _ _ _ Ih)) as It.
    split; [unfold frz_ts; rewrite (proj2 (in_eqb h taken) It), Bool.andb_false_r; reflexivity|].
    split; [rewrite Forall_forall in T; apply T, It|]. split; [reflexivity|]. apply owner_is; [exact E|]. intros i Hi. apply in_eqb in Hi.
    apply (nodup_concat owns N i j h Hi Ih).
  - intros j m g H. unfold heap_of, start_heap in H. cbn [l_map] in H.
    destruct (existsb (fun h => t_map (the_ts s0 h) =? m) (nth j owns [])) eqn:E; [|discriminate]. injection H as <-.
    pose proof E as E'. apply existsb_exists in E' as (h & Ih & Em). pose proof (U h (nth_concat_in _ _ _ Ih)) as It. rewrite Forall_forall in T.
    assert (Q : existsb (fun h => t_map (the_ts s0 h) =? m) taken = true) by (apply existsb_exists; exists h; split; [exact It|exact Em]).
    split; [unfold frz_map; rewrite Q, Bool.andb_false_r; reflexivity|]. apply Nat.eqb_eq in Em.
    split; [rewrite <- Em; apply (w_maps _ W), T, It|]. split; [reflexivity|]. apply owner_is; [exact E|].
    intros i Hi. apply existsb_exists in Hi as (h' & Ih' & Em'). apply Nat.eqb_eq in Em'.
    assert (h' = h) by (apply (w_own _ W); [apply T, U, (nth_concat_in _ _ _ Ih')|apply T, It|congruence]). subst h'.
    apply (nodup_concat owns N i j h Ih' Ih).
  - intros j t x H. discriminate H.
  - intros j t x H. discriminate H.
Qed.
Lemma fine_no_race {R} (rs : list R) s ps : all_fine rs s ps -> ~ handle_race ps.
Proof.
  intros (Hl & Lf & ow & om & I & F) (i & j & p & q & x & Ne & Ei & Ej & W & U).
  assert (G : forall i p, nth_error ps i = Some p -> exists r, fine r p (Lf i)).
  { intros n p' En. destruct (nth_error rs n) as [r|] eqn:Er; [exists r; exact (F _ _ _ En Er)|].
    apply nth_error_None in Er. assert (n < length ps) by (apply nth_error_Some; congruence). lia. }
  destruct (G _ _ Ei) as (r1 & F1). destruct (G _ _ Ej) as (r2 & F2). clear G.
  destruct p as [|?|y f k| | |]; cbn [writes_at] in W; try contradiction. subst y.
  assert (C : exists L', change (Lf i) x f = Some L') by (cbn [fine] in F1; destruct (change (Lf i) x f) as [L'|]; [exists L'; reflexivity|contradiction]).
  destruct C as (L' & C).
  assert (T : forall h y z, own_ts (Lf i) h = Some y -> ts_at (Lf j) h = Some z -> False).
  { intros h y z Hy Hz. unfold own_ts, ts_at in *. destruct (frz_ts h); [discriminate|].
    destruct (i_own _ _ _ _ I _ _ _ Hy) as (_ & _ & _ & O1). destruct (i_own _ _ _ _ I _ _ _ Hz) as (_ & _ & _ & O2). congruence. }
  assert (M : forall h y z, own_map (Lf i) h = Some y -> map_at (Lf j) h = Some z -> False).
  { intros h y z Hy Hz. unfold own_map, map_at in *. destruct (frz_map h); [discriminate|].
    destruct (i_ownm _ _ _ _ I _ _ _ Hy) as (_ & _ & _ & O1). destruct (i_ownm _ _ _ _ I _ _ _ Hz) as (_ & _ & _ & O2). congruence. }
  assert (V : forall L h y, own_ts L h = Some y -> ts_at L h = Some y) by (unfold own_ts, ts_at; intros L h y; destruct (frz_ts h); [discriminate|auto]).
  assert (V' : forall L h y, own_map L h = Some y -> map_at L h = Some y) by (unfold own_map, map_at; intros L h y; destruct (frz_map h); [discriminate|auto]).
  destruct q as [|y k'|y f' k'| | |]; cbn [uses_at] in U; try contradiction; subst y; cbn [fine] in F2;
    destruct x; cbn [change see] in *; try discriminate;
    try (destruct (own_ts (Lf i) h) as [u|] eqn:Eu; [|discriminate]; destruct (ts_at (Lf j) h) as [v|] eqn:Ev; [exact (T _ _ _ Eu Ev)|contradiction]);
    try (destruct (own_ts (Lf i) h) as [u|] eqn:Eu; [|discriminate]; destruct (own_ts (Lf j) h) as [v|] eqn:Ev; [exact (T _ _ _ Eu (V _ _ _ Ev))|contradiction]).
  - destruct (own_map (Lf i) m) as [u|] eqn:Eu; [|discriminate]. destruct (map_at (Lf j) m) as [v|] eqn:Ev; [exact (M _ _ _ Eu Ev)|contradiction].
  - destruct (own_map (Lf i) m) as [u|] eqn:Eu; [|discriminate]. destruct (own_map (Lf j) m) as [v|] eqn:Ev; [exact (M _ _ _ Eu (V' _ _ _ Ev))|contradiction].
Qed.
End Facts.
