(** The calls of a request write only memory the request allocated itself, and
    their answers depend only on the state at the start and on the request. *)
From Coq Require Import Lia Arith.
From Verif Require Import GoStr GoStrFacts GoMap GoMapFacts FileModel FileFacts PoReadFacts TransModel TransSpec TransFacts TransQuietFacts ConcModel ConcSpec ConcFacts HandleConcModel HandleConcSpec HandleConcFacts.
Local Open Scope nat_scope.

Section Calls.
Context {A : Type}.
Variable fmt : bytes -> list A -> bytes.
Variable norm : bytes -> bytes.
Notation state := (@state A).
Variable s0 : state.
Hypothesis W0 : wf s0.
Hypothesis C0 : calm s0.
Variable taken : list nat.
Hypothesis T0 : Forall (fun h => h < length (s_ts s0)) taken.
(** the handles this goroutine has at the start *)
Variable own0 : list nat.
Hypothesis O0 : forall h, In h own0 -> In h taken.
Hypothesis N0 : NoDup own0.
Notation nts := (length (s_ts s0)).
Notation nm := (length (s_maps s0)).
Notation ntr := (length (s_trs s0)).
Notation nf := (length (s_files s0)).
Notation fine := (fine norm s0 taken).
Notation ts_at := (ts_at s0 taken).
Notation map_at := (map_at s0 taken).
Notation own_ts := (own_ts s0 taken).
Notation own_map := (own_map s0 taken).
Notation frz_ts := (frz_ts s0 taken).
Notation frz_map := (frz_map s0 taken).
Notation lheap := (@lheap A).

(** ** What a handle says, without addresses *)
Inductive ator := AN | AF (f : file) | AU (u : @user A).
Record view := { v_locale : bytes; v_domain : bytes; v_source : bytes; v_map : gmap (gmap ator) }.
Definition rec_of (v : view) (m : nat) : tsrec := {| t_locale := v_locale v; t_domain := v_domain v; t_map := m; t_source := v_source v |}.
Definition tor_is (L : lheap) (c : @tor A) (z : ator) : Prop :=
  match c with
  | TNoop => z = AN
  | TUser u => z = AU u
  | TFile a => exists f, z = AF f /\ file_at s0 L a = Some f /\ ready f
  end.
Definition langs_is (L : lheap) (ls : gmap (@tor A)) (y : gmap ator) : Prop :=
  keys ls = keys y /\ forall l, match mget l ls with Some c => exists z, mget l y = Some z /\ tor_is L c z | None => mget l y = None end.
Definition tr_is (L : lheap) (t : nat) (y : gmap ator) : Prop :=
  exists x, tr_at s0 L t = Some x /\ langs_is L (tr_langs x) y.
Definition map_is (L : lheap) (g : gmap nat) (vm : gmap (gmap ator)) : Prop :=
  (NoDup (keys g) /\ keys g = keys vm) /\ forall d, match mget d g with Some t => exists y, mget d vm = Some y /\ tr_is L t y | None => mget d vm = None end.
Definition at_view (L : lheap) (h m : nat) (v : view) : Prop :=
  frz_ts h = false /\ frz_map m = false /\ l_ts L h = Some (rec_of v m) /\ exists g, l_map L m = Some g /\ map_is L g (v_map v).
Definition readable (L : lheap) (h : nat) (v : view) : Prop :=
  exists m g, ts_at L h = Some (rec_of v m) /\ map_at L m = Some g /\ map_is L g (v_map v).
Definition rel (L : lheap) (own : list nat) (vs : list view) : Prop :=
  exists ms, (exists rest, own = own0 ++ rest) /\ NoDup own /\ NoDup ms /\ length own = length vs /\ length ms = length vs
    /\ forall i h m v, nth_error own i = Some h -> nth_error ms i = Some m -> nth_error vs i = Some v -> at_view L h m v.
(** the loaded translations stay *)
Definition data (L L' : lheap) : Prop :=
  (forall t, l_tr L t <> None -> l_tr L' t = l_tr L t) /\ (forall a, l_file L a <> None -> l_file L' a = l_file L a).
Definition grows (L L' : lheap) : Prop :=
  (forall h, l_ts L h <> None -> l_ts L' h = l_ts L h) /\ (forall m, l_map L m <> None -> l_map L' m = l_map L m) /\ data L L'.
Definition made (L L' : lheap) (h : nat) (v : view) : Prop :=
  grows L L' /\ l_ts L h = None /\ exists m, l_map L m = None /\ at_view L' h m v.
Lemma data_refl L : data L L. Proof. split; auto. Qed.
Lemma data_same (L L' : lheap) : l_tr L' = l_tr L -> l_file L' = l_file L -> data L L'.
Proof. intros E1 E2. split; intros x _; rewrite ?E1, ?E2; reflexivity. Qed.
Lemma data_trans L1 L2 L3 : data L1 L2 -> data L2 L3 -> data L1 L3.
Proof. intros [A1 A2] [B1 B2]. split; intros h H; [rewrite B1; rewrite A1 by exact H; auto|rewrite B2; rewrite A2 by exact H; auto]. Qed.
Lemma tor_data L L' c z : data L L' -> tor_is L c z -> tor_is L' c z.
Proof.
  intros [_ D] H. destruct c as [|a|u]; try exact H. destruct H as (f & E & Ef & Rf). exists f. split; [exact E|]. split; [|exact Rf].
  unfold file_at in *. destruct (a <? nf); [exact Ef|]. rewrite D by congruence. exact Ef.
Qed.
Lemma langs_data L L' ls y : data L L' -> langs_is L ls y -> langs_is L' ls y.
Proof. intros D [Ek H]. split; [exact Ek|]. intros l. specialize (H l). destruct (mget l ls) as [c|]; [|exact H]. destruct H as (z & E & H). exists z. split; [exact E|]. apply (tor_data L); assumption. Qed.
Lemma tr_data L L' t y : data L L' -> tr_is L t y -> tr_is L' t y.
Proof.
  intros D (x & E & H). exists x. split; [|apply (langs_data L); assumption]. destruct D as [D _].
  unfold tr_at in *. destruct (t <? ntr); [exact E|]. rewrite D by congruence. exact E.
Qed.
Lemma map_data L L' g vm : data L L' -> map_is L g vm -> map_is L' g vm.
Proof.
  intros D [N H]. split; [exact N|]. intros d. specialize (H d). destruct (mget d g) as [t|]; [|exact H]. destruct H as (y & E & H). exists y.
  split; [exact E|]. apply (tr_data L); assumption.
Qed.
Lemma grows_refl L : grows L L. Proof. split; [auto|]. split; [auto|apply data_refl]. Qed.
Lemma grows_trans L1 L2 L3 : grows L1 L2 -> grows L2 L3 -> grows L1 L3.
Proof.
  intros (A1 & A2 & A3) (B1 & B2 & B3). split; [|split; [|apply (data_trans _ _ _ A3 B3)]]; intros h H;
  [rewrite B1; rewrite A1 by exact H; auto|rewrite B2; rewrite A2 by exact H; auto].
Qed.
Lemma at_grows L L' h m v : grows L L' -> at_view L h m v -> at_view L' h m v.
Proof.
  intros (G1 & G2 & G3) (B1 & B2 & B3 & g & B4 & B5). split; [exact B1|]. split; [exact B2|]. split; [rewrite G1 by congruence; exact B3|].
  exists g. split; [rewrite G2 by congruence; exact B4|]. apply (map_data L); assumption.
Qed.
Lemma at_readable L h m v : at_view L h m v -> readable L h v.
Proof.
  intros (B1 & B2 & B3 & g & B4 & B5). exists m, g. unfold HandleConcFacts.ts_at, HandleConcFacts.map_at. rewrite B1, B2. auto.
Qed.
Lemma readable_grows L L' h v : grows L L' -> readable L h v -> readable L' h v.
Proof.
  intros (G1 & G2 & G3) (m & g & B1 & B2 & B3). exists m, g. unfold HandleConcFacts.ts_at, HandleConcFacts.map_at in *. split; [|split].
  - destruct (frz_ts h); [exact B1|]. rewrite G1 by congruence. exact B1.
  - destruct (frz_map m); [exact B2|]. rewrite G2 by congruence. exact B2.
  - apply (map_data L); assumption.
Qed.
Lemma made_readable L L' h v : made L L' h v -> readable L' h v.
Proof. intros (_ & _ & m & _ & H). apply (at_readable _ _ _ _ H). Qed.
Lemma made_after L L1 L2 h v : grows L L1 -> made L1 L2 h v -> made L L2 h v.
Proof.
  intros G (G' & N & m & Nm & V). split; [apply (grows_trans _ _ _ G G')|]. destruct G as (G1 & G2 & _). split.
  - destruct (l_ts L h) eqn:E; [|reflexivity]. rewrite G1 in N by congruence. congruence.
  - exists m. split; [|exact V]. destruct (l_map L m) eqn:E; [|reflexivity]. rewrite G2 in Nm by congruence. congruence.
Qed.
Lemma rel_grows L L' own vs : grows L L' -> rel L own vs -> rel L' own vs.
Proof.
  intros G (ms & Pr & N1 & N2 & L1 & L2 & V). exists ms. repeat (split; [assumption|]). intros i h m v H H0 H1.
  apply (at_grows _ _ _ _ _ G (V _ _ _ _ H H0 H1)).
Qed.
Lemma NoDup_snoc {X} (l : list X) x : NoDup l -> ~ In x l -> NoDup (l ++ [x]).
Proof.
  intros N H. induction N as [|y l Hy N IH]; cbn [app]; [repeat constructor; auto|]. constructor.
  - rewrite in_app_iff. intros [Q|[->|[]]]; [auto|]. apply H. left. reflexivity.
  - apply IH. intros Q. apply H. right. exact Q.
Qed.
Lemma nth_snoc {X} (l : list X) x i y : nth_error (l ++ [x]) i = Some y -> (i < length l /\ nth_error l i = Some y) \/ (i = length l /\ y = x).
Proof.
  destruct (Nat.lt_ge_cases i (length l)) as [L|L].
  - rewrite nth_error_app1 by exact L. auto.
  - rewrite nth_error_app2 by exact L. destruct (i - length l) as [|k] eqn:E.
    + intros [= ->]. right. split; [lia|reflexivity].
    + destruct k; discriminate.
Qed.
Lemma rel_made L L' own vs h v : rel L own vs -> made L L' h v -> rel L' (own ++ [h]) (vs ++ [v]).
Proof.
  intros (ms & (rest & Er) & N1 & N2 & L1 & L2 & V) (G & Nh & m & Nm & AV). exists (ms ++ [m]).
  assert (Vi : forall i, i < length vs -> exists h m v, nth_error own i = Some h /\ nth_error ms i = Some m /\ nth_error vs i = Some v /\ at_view L h m v).
  { intros i Hi. destruct (nth_error own i) as [h1|] eqn:E1; [|apply nth_error_None in E1; lia].
    destruct (nth_error ms i) as [m1|] eqn:E2; [|apply nth_error_None in E2; lia].
    destruct (nth_error vs i) as [v1|] eqn:E3; [|apply nth_error_None in E3; lia]. exists h1, m1, v1. eauto. }
  split; [exists (rest ++ [h]); rewrite Er, app_assoc; reflexivity|].
  split; [|split; [|split; [|split]]].
  - apply NoDup_snoc; [exact N1|]. intros Ih. apply In_nth_error in Ih as (i & Ei).
    assert (Hi : i < length vs) by (rewrite <- L1; apply nth_error_Some; congruence). destruct (Vi i Hi) as (h1 & m1 & v1 & Q1 & _ & _ & Q).
    destruct Q as (_ & _ & Q & _). congruence.
  - apply NoDup_snoc; [exact N2|]. intros Ih. apply In_nth_error in Ih as (i & Ei).
    assert (Hi : i < length vs) by (rewrite <- L2; apply nth_error_Some; congruence). destruct (Vi i Hi) as (h1 & m1 & v1 & _ & Q1 & _ & Q).
    destruct Q as (_ & _ & _ & g & Q & _). congruence.
  - rewrite !app_length. cbn [length]. lia.
  - rewrite !app_length. cbn [length]. lia.
  - intros i h1 m1 v1 E1 E2 E3. apply nth_snoc in E1 as [[B1 E1]|[B1 ->]]; apply nth_snoc in E2 as [[B2 E2]|[B2 ->]]; apply nth_snoc in E3 as [[B3 E3]|[B3 ->]];
      try (exfalso; lia).
    + apply (at_grows _ _ _ _ _ G (V _ _ _ _ E1 E2 E3)).
    + exact AV.
Qed.
Lemma nth_error_upd {X} (l : list X) i x j : nth_error (upd i x l) j = if (j =? i) && (i <? length l) then Some x else nth_error l j.
Proof.
  revert i j. induction l as [|y l IH]; intros [|i] [|j]; cbn [upd nth_error length]; try reflexivity.
  - rewrite Bool.andb_comm. reflexivity.
  - rewrite IH. reflexivity.
Qed.
Lemma NoDup_upd {X} (l : list X) i x : NoDup l -> (forall j, nth_error l j = Some x -> j = i) -> NoDup (upd i x l).
Proof.
  intros N H. apply NoDup_nth_error. intros a b La E. rewrite upd_length in La. rewrite !nth_error_upd in E.
  assert (La' : nth_error l a <> None) by (apply nth_error_Some, La).
  destruct ((a =? i) && (i <? length l)) eqn:Ea; destruct ((b =? i) && (i <? length l)) eqn:Eb.
  - apply Bool.andb_true_iff in Ea as [Ea _]. apply Bool.andb_true_iff in Eb as [Eb _]. apply Nat.eqb_eq in Ea, Eb. congruence.
  - symmetry in E. apply H in E. subst b. apply Bool.andb_true_iff in Ea as [_ Ea]. rewrite Nat.eqb_refl, Ea in Eb. discriminate.
  - apply H in E. subst a. apply Bool.andb_true_iff in Eb as [_ Eb]. rewrite Nat.eqb_refl, Eb in Ea. discriminate.
  - apply (proj1 (NoDup_nth_error l) N a b La E).
Qed.
(** changing an own handle *)
Lemma rel_own L own vs i : rel L own vs -> i < length vs ->
  exists m v, nth_error vs i = Some v /\ nth_error own i = Some (nth i own 0) /\ at_view L (nth i own 0) m v
  /\ forall L' m' v', at_view L' (nth i own 0) m' v' -> (m' = m \/ l_map L m' = None) ->
     (forall h, h <> nth i own 0 -> l_ts L' h = l_ts L h) -> (forall n, n <> m -> n <> m' -> l_map L' n = l_map L n) -> data L L' ->
     rel L' own (upd i v' vs).
Proof.
  intros (ms & Pr & N1 & N2 & L1 & L2 & V) Hi.
  destruct (nth_error own i) as [h|] eqn:E1; [|apply nth_error_None in E1; lia].
  destruct (nth_error ms i) as [m|] eqn:E2; [|apply nth_error_None in E2; lia].
  destruct (nth_error vs i) as [v|] eqn:E3; [|apply nth_error_None in E3; lia].
  rewrite (nth_error_nth _ _ 0 E1). exists m, v. split; [reflexivity|]. split; [reflexivity|]. split; [exact (V _ _ _ _ E1 E2 E3)|].
  intros L' m' v' AV Hm Hh Hn Hd. exists (upd i m' ms).
  assert (Fr : forall j, nth_error ms j = Some m' -> j = i).
  { intros j Ej. destruct Hm as [->|Hm].
    - apply (proj1 (NoDup_nth_error ms) N2); [apply nth_error_Some; congruence|congruence].
    - assert (Hj : j < length vs) by (rewrite <- L2; apply nth_error_Some; congruence).
      destruct (nth_error own j) as [h1|] eqn:F1; [|apply nth_error_None in F1; lia].
      destruct (nth_error vs j) as [v1|] eqn:F3; [|apply nth_error_None in F3; lia].
      destruct (V _ _ _ _ F1 Ej F3) as (_ & _ & _ & g & Q & _). congruence. }
  split; [exact Pr|]. split; [exact N1|]. split; [apply NoDup_upd; assumption|]. split; [rewrite upd_length; exact L1|]. split; [rewrite !upd_length; exact L2|].
  intros j h1 m1 v1 F1 F2 F3. rewrite nth_error_upd in F2. rewrite nth_error_upd in F3. rewrite L2 in F2. rewrite (proj2 (Nat.ltb_lt i (length vs)) Hi) in F2, F3.
  rewrite Bool.andb_true_r in F2, F3. destruct (j =? i) eqn:Ej.
  - apply Nat.eqb_eq in Ej as ->. injection F2 as <-. injection F3 as <-. assert (h1 = h) by congruence. subst h1. exact AV.
  - apply Nat.eqb_neq in Ej. destruct (V _ _ _ _ F1 F2 F3) as (B1 & B2 & B3 & g & B4 & B5).
    assert (h1 <> h) by (intros ->; apply Ej; apply (proj1 (NoDup_nth_error own) N1); [apply nth_error_Some; congruence|congruence]).
    assert (m1 <> m) by (intros ->; apply Ej; apply (proj1 (NoDup_nth_error ms) N2); [apply nth_error_Some; congruence|congruence]).
    assert (m1 <> m') by (intros ->; apply Ej, Fr, F2).
    split; [exact B1|]. split; [exact B2|]. split; [rewrite Hh by assumption; exact B3|]. exists g. split; [rewrite Hn by assumption; exact B4|apply (map_data L); assumption].
Qed.

(** ** Calls that make handles *)
Section R.
Context {R : Type}.
Variable r : R.
Lemma fine_make L m g h x v (k : gprog R) : nts <= h -> nm <= m -> l_ts L h = None -> l_map L m = None -> x = rec_of v m -> map_is L g (v_map v) ->
  (forall L', made L L' h v -> fine r k L') -> fine r k (put_ts (put_map L m g) h x).
Proof.
  intros B1 B2 N1 N2 -> Mi K. apply K. split; [split; [|split]|].
  - intros h' H. cbn [put_ts put_map l_ts]. apply fset_other. intros ->. contradiction.
  - intros m' H. cbn [put_ts put_map l_map]. apply fset_other. intros ->. contradiction.
  - apply data_same; reflexivity.
  - split; [exact N1|]. exists m. split; [exact N2|]. split; [apply frz_ts_ge, B1|]. split; [apply frz_map_ge, B2|].
    cbn [put_ts put_map l_ts l_map]. rewrite !fset_same. split; [reflexivity|]. exists g. split; [reflexivity|].
    apply (map_data L); [apply data_same; reflexivity|exact Mi].
Qed.
Lemma fine_clone L a v (k : nat -> gprog R) : readable L a v -> (forall L' h, made L L' h v -> fine r (k h) L') -> fine r (clone_c a k) L.
Proof.
  intros (m & g & B1 & B2 & B3) K. unfold clone_c. cbn [HandleConcFacts.fine see]. rewrite B1. cbn [option_map rec_of t_locale t_domain t_map t_source].
  rewrite B2. intros m' Hm Nm.
  assert (B1' : ts_at (put_map L m' g) a = Some (rec_of v m)) by exact B1. rewrite B1'. cbn [option_map rec_of t_source].
  intros h Hh Nh. apply (fine_make L m' _ h _ v); try assumption; try reflexivity. intros L' M. apply K, M.
Qed.
Definition new_view (d : bytes) : view := {| v_locale := d; v_domain := default_domain; v_source := default_source; v_map := [] |}.
Lemma map_is_nil L : map_is L [] [].
Proof. split; [split; [constructor|reflexivity]|reflexivity]. Qed.
Lemma fine_new L d (k : nat -> gprog R) : (forall L' h, made L L' h (new_view d) -> fine r (k h) L') -> fine r (new_c d k) L.
Proof.
  intros K. unfold new_c. cbn [HandleConcFacts.fine]. intros m Hm Nm h Hh Nh.
  apply (fine_make L m _ h _ (new_view d)); try assumption; try reflexivity; [apply map_is_nil|]. intros L' M. apply K, M.
Qed.
Definition v_with_locale (v : view) (l : bytes) : view := {| v_locale := l; v_domain := v_domain v; v_source := v_source v; v_map := v_map v |}.
Definition v_with_domain (v : view) (d : bytes) : view := {| v_locale := v_locale v; v_domain := d; v_source := v_source v; v_map := v_map v |}.
Definition v_with_source (v : view) (l : bytes) : view := {| v_locale := v_locale v; v_domain := v_domain v; v_source := l; v_map := v_map v |}.
Definition v_with_map (v : view) (g : gmap (gmap ator)) : view := {| v_locale := v_locale v; v_domain := v_domain v; v_source := v_source v; v_map := g |}.
Lemma made_put L L' h v v' : made L L' h v -> v_map v' = v_map v -> exists m, own_ts L' h = Some (rec_of v m) /\ made L (put_ts L' h (rec_of v' m)) h v'.
Proof.
  intros ((G1 & G2 & G3) & N & m & Nm & (B1 & B2 & B3 & g & B4 & B5)) E. exists m. unfold HandleConcFacts.own_ts. rewrite B1. split; [exact B3|].
  split; [split; [|split; [exact G2|exact G3]]|].
  - intros h' H. cbn [put_ts l_ts]. rewrite fset_other; [apply G1, H|]. intros ->. contradiction.
  - split; [exact N|]. exists m. split; [exact Nm|]. split; [exact B1|]. split; [exact B2|]. cbn [put_ts l_ts l_map]. rewrite fset_same, E.
    split; [reflexivity|]. exists g. split; [exact B4|exact B5].
Qed.
Lemma fine_L L a v l d (k : nat -> gprog R) : readable L a v ->
  (forall L' h, made L L' h (v_with_locale v (match l with [] => d | _ => norm l end)) -> fine r (k h) L') -> fine r (L_c norm a l d k) L.
Proof.
  intros B K. unfold L_c. apply (fine_clone L a v); [exact B|]. intros L' h M. unfold set_locale_c. cbn [HandleConcFacts.fine change].
  destruct (made_put L L' h v (v_with_locale v (match l with [] => d | _ => norm l end)) M eq_refl) as (m & E & M').
  rewrite E. cbn [option_map]. apply K. exact M'.
Qed.
Lemma fine_D L a v dom (k : nat -> gprog R) : readable L a v ->
  (forall L' h, made L L' h (v_with_domain v dom) -> fine r (k h) L') -> fine r (D_c a dom k) L.
Proof.
  intros B K. unfold D_c. apply (fine_clone L a v); [exact B|]. intros L' h M. unfold set_domain_c. cbn [HandleConcFacts.fine change].
  destruct (made_put L L' h v (v_with_domain v dom) M eq_refl) as (m & E & M').
  rewrite E. cbn [option_map]. apply K. exact M'.
Qed.
(** a handle of the start *)
Definition atr0 (c : @tor A) : ator := match c with TNoop => AN | TFile a => AF (the_file s0 a) | TUser u => AU u end.
Definition over {X Y} (f : X -> Y) (m : gmap X) : gmap Y := map (fun x => (fst x, f (snd x))) m.
Lemma mget_over {X Y} (f : X -> Y) l m : mget l (over f m) = option_map f (mget l m).
Proof. induction m as [|[k x] m IH]; [reflexivity|]. cbn [over map mget fst snd]. destruct (beq l k); [reflexivity|exact IH]. Qed.
Lemma keys_over {X Y} (f : X -> Y) m : keys (over f m) = keys m.
Proof. unfold keys, over. rewrite map_map. reflexivity. Qed.
Definition langs0 (t : nat) : gmap ator := over atr0 (tr_langs (the_tr s0 t)).
Definition shared_view (h : nat) : view :=
  {| v_locale := t_locale (the_ts s0 h); v_domain := t_domain (the_ts s0 h); v_source := t_source (the_ts s0 h);
     v_map := over langs0 (the_map s0 (t_map (the_ts s0 h))) |}.
Lemma tr_is0 L t : t < ntr -> tr_is L t (langs0 t).
Proof.
  intros H. exists (the_tr s0 t). unfold tr_at. rewrite (proj2 (Nat.ltb_lt t ntr) H). split; [reflexivity|].
  split; [symmetry; apply keys_over|]. intros l. unfold langs0. rewrite mget_over.
  destruct (mget l (tr_langs (the_tr s0 t))) as [c|] eqn:E; [|reflexivity]. cbn [option_map]. exists (atr0 c). split; [reflexivity|].
  destruct c as [|a|u]; cbn [tor_is atr0]; try reflexivity. destruct (c_tors _ C0 _ _ _ E) as [La Ra]. exists (the_file s0 a). split; [reflexivity|].
  unfold file_at. rewrite (proj2 (Nat.ltb_lt a nf) La). split; [reflexivity|exact Ra].
Qed.
Lemma map_is0 L h : map_is L (the_map s0 (t_map (the_ts s0 h))) (v_map (shared_view h)).
Proof.
  split; [split; [apply (w_nodup _ W0)|symmetry; apply keys_over]|]. intros d. cbn [shared_view v_map]. rewrite mget_over. destruct (mget d (the_map s0 (t_map (the_ts s0 h)))) as [t|] eqn:E; [|reflexivity].
  cbn [option_map]. exists (langs0 t). split; [reflexivity|]. apply tr_is0, (w_trs _ W0 _ _ _ E).
Qed.
Lemma rec_of0 h : rec_of (shared_view h) (t_map (the_ts s0 h)) = the_ts s0 h.
Proof. unfold rec_of, shared_view. cbn [v_locale v_domain v_source]. destruct (the_ts s0 h); reflexivity. Qed.
Lemma frz_shared h : h < nts -> ~ In h taken -> frz_ts h = true /\ frz_map (t_map (the_ts s0 h)) = true.
Proof.
  intros H Nt. split.
  - apply andb_true_iff. split; [apply Nat.ltb_lt, H|]. destruct (existsb (Nat.eqb h) taken) eqn:E; [|reflexivity]. apply in_eqb in E. contradiction.
  - apply andb_true_iff. split; [apply Nat.ltb_lt, (w_maps _ W0), H|]. destruct (existsb _ taken) eqn:E; [|reflexivity].
    apply existsb_exists in E as (h' & I' & E). apply Nat.eqb_eq in E. rewrite Forall_forall in T0.
    assert (h' = h) by (apply (w_own _ W0); [apply T0, I'|exact H|exact E]). subst h'. contradiction.
Qed.
Lemma readable_shared L h : h < nts -> ~ In h taken -> readable L h (shared_view h).
Proof.
  intros H Nt. exists (t_map (the_ts s0 h)), (the_map s0 (t_map (the_ts s0 h))). destruct (frz_shared h H Nt) as [F1 F2].
  unfold HandleConcFacts.ts_at, HandleConcFacts.map_at. rewrite F1, F2, rec_of0. split; [reflexivity|]. split; [reflexivity|apply map_is0].
Qed.

(** ** Receivers *)
Fixpoint pos (h : nat) (l : list nat) : nat := match l with [] => 0 | x :: r => if h =? x then 0 else S (pos h r) end.
Lemma pos_in h l rest : In h l -> pos h l < length l /\ nth (pos h l) (l ++ rest) 0 = h.
Proof.
  induction l as [|x l IH]; intros H; [destruct H|]. cbn [pos length app nth]. destruct (h =? x) eqn:E; [apply Nat.eqb_eq in E; split; [lia|auto]|].
  destruct H as [->|H]; [rewrite Nat.eqb_refl in E; discriminate|]. destruct (IH H). split; [lia|assumption].
Qed.
(** the number, among the handles of the goroutine, of a receiver that is its own *)
Definition number (h : href) : nat := match h with HGlob => pos (s_global s0) own0 | HShared a => pos a own0 | HOwn i => i end.
Definition vdef : view := {| v_locale := []; v_domain := []; v_source := []; v_map := [] |}.
Lemma nth_vdef vs i v : nth_error vs i = Some v -> nth i vs vdef = v.
Proof. apply nth_error_nth. Qed.
Lemma rel_len L own vs : rel L own vs -> length own0 <= length vs.
Proof. intros (ms & (rest & ->) & _ & _ & E & _). rewrite <- E, app_length. lia. Qed.
Lemma fine_mine L own vs h (k : nat -> gprog R) : rel L own vs -> mine s0 own0 (length vs) h ->
  (number h < length vs -> fine r (k (nth (number h) own 0)) L) -> fine r (with_ref own h k) L.
Proof.
  intros Re Mi K. pose proof (rel_len _ _ _ Re) as Le. destruct Re as (ms & (rest & ->) & _).
  destruct h as [|a|i]; cbn [with_ref mine number HandleConcFacts.fine see] in *.
  - destruct (pos_in _ _ rest Mi) as [P1 P2]. rewrite P2 in K. apply K. lia.
  - destruct (pos_in _ _ rest Mi) as [P1 P2]. rewrite P2 in K. apply K. lia.
  - apply K, Mi.
Qed.
Lemma mine_lt (vs : list view) h : length own0 <= length vs -> mine s0 own0 (length vs) h -> number h < length vs.
Proof. intros Le Mi. destruct h as [|a|i]; cbn [mine number] in *; [destruct (pos_in _ _ [] Mi); lia|destruct (pos_in _ _ [] Mi); lia|exact Mi]. Qed.
Definition mine_b (h : href) : bool := match h with HGlob => existsb (Nat.eqb (s_global s0)) own0 | HShared a => existsb (Nat.eqb a) own0 | HOwn i => true end.
Definition ref_view (vs : list view) (h : href) : view :=
  if mine_b h then nth (number h) vs vdef else shared_view (match h with HGlob => s_global s0 | HShared a => a | HOwn i => 0 end).
Lemma fine_ref L own vs h (k : nat -> gprog R) : rel L own vs -> asks s0 taken own0 (length vs) h ->
  (forall a, readable L a (ref_view vs h) -> fine r (k a) L) -> fine r (with_ref own h k) L.
Proof.
  intros Re As K. assert (Q : mine s0 own0 (length vs) h \/ mine_b h = false /\ match h with HGlob => ~ In (s_global s0) taken | HShared a => a < nts /\ ~ In a taken | HOwn _ => False end).
  { destruct As as [As|As]; [left; exact As|]. destruct (mine_b h) eqn:E; [|right; auto]. destruct h as [|a|i]; cbn [mine_b mine] in *; [left; apply in_eqb, E|left; apply in_eqb, E|contradiction]. }
  destruct Q as [Mi|[E Nt]].
  - apply (fine_mine L own vs h k Re Mi). intros Hi. destruct (rel_own L own vs _ Re Hi) as (m & v & Ev & _ & AV & _).
    assert (E : ref_view vs h = v).
    { unfold ref_view. replace (mine_b h) with true; [apply nth_vdef, Ev|]. destruct h as [|a|i]; cbn [mine_b mine] in *; [symmetry; apply in_eqb, Mi|symmetry; apply in_eqb, Mi|reflexivity]. }
    apply K. rewrite E. apply (at_readable _ _ _ _ AV).
  - unfold ref_view in K. rewrite E in K. destruct h as [|a|i]; cbn [with_ref HandleConcFacts.fine see]; [|destruct Nt|contradiction].
    + apply K, readable_shared; [apply (w_global _ W0)|exact Nt].
    + apply K, readable_shared; assumption.
Qed.
Lemma fine_unused L own h (p : gprog R) : fine r p L -> fine r (with_ref own h (fun _ => p)) L.
Proof. intros K. destruct h; exact K. Qed.
Lemma global_ref (k : nat -> @gprog A R) own : global_c k = with_ref own HGlob (fun g => clone_c g k).
Proof. reflexivity. Qed.
Lemma fine_global L own vs (k : nat -> gprog R) : rel L own vs -> asks s0 taken own0 (length vs) HGlob ->
  (forall L' h, made L L' h (ref_view vs HGlob) -> fine r (k h) L') -> fine r (global_c k) L.
Proof.
  intros Re As K. rewrite (global_ref k own). apply (fine_ref L own vs HGlob _ Re As). intros a B. apply (fine_clone _ _ _ _ B K).
Qed.
Definition ctx_view (v : view) (c : ctx) (d : bytes) : view :=
  let v := match get_ctx_locale c with Some l => v_with_locale v (match l with [] => d | _ => norm l end) | None => v end in
  match get_ctx_domain c with Some dom => v_with_domain v dom | None => v end.
Lemma fine_with L own vs c d (k : nat -> gprog R) : rel L own vs -> asks s0 taken own0 (length vs) HGlob ->
  (forall L' h, made L L' h (ctx_view (ref_view vs HGlob) c d) -> fine r (k h) L') -> fine r (with_context_c norm c d k) L.
Proof.
  intros Re As K. unfold with_context_c. apply (fine_global L own vs _ Re As). intros L1 h1 M1. cbv zeta. unfold ctx_view in K.
  set (v0 := ref_view vs HGlob) in *.
  assert (D : forall v L2 h2, made L L2 h2 v -> (forall L' h, made L L' h (match get_ctx_domain c with Some dom => v_with_domain v dom | None => v end) -> fine r (k h) L') ->
    fine r (match get_ctx_domain c with Some dom => D_c h2 dom k | None => k h2 end) L2).
  { intros v L2 h2 M2 K'. destruct (get_ctx_domain c) as [dom|]; [|apply K', M2].
    apply (fine_D L2 h2 v); [apply (made_readable _ _ _ _ M2)|]. intros L3 h3 M3. apply K', (made_after L L2); [apply M2|exact M3]. }
  destruct (get_ctx_locale c) as [l|].
  - apply (fine_L L1 h1 v0); [apply (made_readable _ _ _ _ M1)|]. intros L2 h2 M2.
    apply (D (v_with_locale v0 (match l with [] => d | _ => norm l end))); [apply (made_after L L1); [apply M1|exact M2]|exact K].
  - apply (D v0); assumption.
Qed.

(** ** Calls that ask *)
Definition v_has (v : view) (dom : bytes) : bool := match mget dom (v_map v) with Some _ => true | None => false end.
Lemma has_keys L g vm dom : map_is L g vm -> existsb (beq dom) (keys g) = match mget dom vm with Some _ => true | None => false end.
Proof.
  intros [_ H]. specialize (H dom). destruct (mget dom g) as [t|] eqn:E.
  - destruct H as (y & -> & _). apply existsb_exists. exists dom. split; [apply (mget_some_key _ _ _ E)|apply beq_refl].
  - rewrite H. apply mget_none in E. destruct (existsb (beq dom) (keys g)) eqn:Ex; [|reflexivity]. apply existsb_exists in Ex as (x & Ix & Q).
    apply beq_eq in Q. subst x. contradiction.
Qed.
Lemma fine_has L a v dom (k : bool -> gprog R) : readable L a v -> fine r (k (v_has v dom)) L -> fine r (has_c a dom k) L.
Proof.
  intros (m & g & B1 & B2 & B3) K. unfold has_c. cbn [HandleConcFacts.fine see]. rewrite B1. cbn [option_map rec_of t_map]. rewrite B2.
  rewrite (has_keys L g (v_map v) dom B3). exact K.
Qed.
Lemma fine_get L a v dom (k : option nat -> gprog R) : readable L a v ->
  (forall o, match o with Some t => exists y, mget dom (v_map v) = Some y /\ tr_is L t y | None => mget dom (v_map v) = None end -> fine r (k o) L) -> fine r (get_c a dom k) L.
Proof.
  intros (m & g & B1 & B2 & B3) K. unfold get_c. cbn [HandleConcFacts.fine see]. rewrite B1. cbn [option_map rec_of t_map]. rewrite B2.
  apply K. apply (proj2 B3 dom).
Qed.
Lemma fine_domain L a v (k : bytes -> gprog R) : readable L a v -> fine r (k (v_domain v)) L -> fine r (Rd (PDomain a) k) L.
Proof. intros (m & g & B1 & B2 & B3) K. cbn [HandleConcFacts.fine see]. rewrite B1. exact K. Qed.
Lemma fine_locale L a v (k : bytes -> gprog R) : readable L a v -> fine r (k (v_locale v)) L -> fine r (Rd (PLocale a) k) L.
Proof. intros (m & g & B1 & B2 & B3) K. cbn [HandleConcFacts.fine see]. rewrite B1. exact K. Qed.
Lemma fine_source L a v (k : bytes -> gprog R) : readable L a v -> fine r (k (v_source v)) L -> fine r (Rd (PSource a) k) L.
Proof. intros (m & g & B1 & B2 & B3) K. cbn [HandleConcFacts.fine see]. rewrite B1. exact K. Qed.
Lemma fine_langs L t y (k : gmap (@tor A) -> gprog R) : tr_is L t y -> (forall ls, langs_is L ls y -> fine r (k ls) L) -> fine r (Rd (PLangs t) k) L.
Proof. intros (x & E & H) K. cbn [HandleConcFacts.fine see]. rewrite E. cbn [option_map]. apply K, H. Qed.
Definition v_used (v : view) : bytes :=
  match mget (v_domain v) (v_map v) with
  | None => v_source v
  | Some y => match mget (v_locale v) y with None => v_source v | Some _ => v_locale v end
  end.
Lemma fine_used L a v (k : bytes -> gprog R) : readable L a v -> fine r (k (v_used v)) L -> fine r (used_c a k) L.
Proof.
  intros B K. unfold used_c. apply (fine_domain L a v _ B), (fine_get L a v _ _ B). intros o Ho. unfold v_used in K.
  destruct o as [t|]; [|rewrite Ho in K; apply (fine_source L a v _ B), K]. destruct Ho as (y & Ey & Hy). rewrite Ey in K.
  apply (fine_locale L a v _ B), (fine_langs L t y _ Hy). intros ls Hl. apply proj2 in Hl. specialize (Hl (v_locale v)).
  destruct (mget (v_locale v) ls); [destruct Hl as (z & Ez & _); rewrite Ez in K; apply (fine_locale L a v _ B), K|].
  rewrite Hl in K. apply (fine_source L a v _ B), K.
Qed.
Lemma fine_domains L a v (k : list bytes -> gprog R) : readable L a v -> fine r (k (keys (v_map v))) L -> fine r (domains_c a k) L.
Proof.
  intros (m & g & B1 & B2 & B3) K. unfold domains_c. cbn [HandleConcFacts.fine see]. rewrite B1. cbn [option_map rec_of t_map]. rewrite B2.
  rewrite (proj2 (proj1 B3)). exact K.
Qed.
Definition v_langs (v : view) : gmap ator := match mget (v_domain v) (v_map v) with Some y => y | None => langs0 tr_noop end.
Lemma fine_locales L a v (k : bytes -> list bytes -> gprog R) : readable L a v -> fine r (k (v_source v) (keys (v_langs v))) L -> fine r (locales_c a k) L.
Proof.
  intros B K. unfold locales_c. apply (fine_domain L a v _ B), (fine_get L a v _ _ B). intros o Ho. cbv zeta. apply (fine_source L a v _ B).
  assert (Hy : tr_is L (match o with Some t => t | None => tr_noop end) (v_langs v)).
  { unfold v_langs. destruct o as [t|]; [destruct Ho as (y' & -> & Hy); exact Hy|]. rewrite Ho. apply tr_is0, (w_noop _ W0). }
  apply (fine_langs L _ _ _ Hy). intros ls [E _]. rewrite E. exact K.
Qed.
Definition v_tor (v : view) : ator :=
  match mget (v_locale v) (match mget (v_domain v) (v_map v) with Some y => y | None => langs0 tr_noop end) with Some z => z | None => AN end.
Lemma fine_tor L a v (k : @tor A -> gprog R) : readable L a v -> (forall c, tor_is L c (v_tor v) -> fine r (k c) L) -> fine r (tor_c a k) L.
Proof.
  intros B K. unfold tor_c. apply (fine_domain L a v _ B), (fine_get L a v _ _ B). intros o Ho. cbv zeta. apply (fine_locale L a v _ B).
  unfold v_tor in K. set (y := match mget (v_domain v) (v_map v) with Some y => y | None => langs0 tr_noop end) in *.
  assert (Hy : tr_is L (match o with Some t => t | None => tr_noop end) y).
  { unfold y. destruct o as [t|]; [destruct Ho as (y' & -> & Hy); exact Hy|]. rewrite Ho. apply tr_is0, (w_noop _ W0). }
  apply (fine_langs L _ y _ Hy). intros ls Hl. apply proj2 in Hl. specialize (Hl (v_locale v)). apply K.
  destruct (mget (v_locale v) ls) as [c|]; [destruct Hl as (z & -> & Hz); exact Hz|]. rewrite Hl. reflexivity.
Qed.
Lemma fine_lift {T} (t : T) n a f (p : prog T) L (k : T -> gprog R) : file_at s0 L a = Some f -> ready f -> ok f t n true true p -> fine r (k t) L -> fine r (lift a p k) L.
Proof.
  intros Ef [H1 H2] O K. remember true as bh eqn:Eh in O at 1. remember true as bp eqn:Ep in O.
  assert (Q1 : f_headers f = Some (the_headers f)) by (destruct (f_headers f) eqn:E; [|congruence]; unfold the_headers, init_header; rewrite E, E; reflexivity).
  assert (Q2 : f_plural f = Some (the_plural f)) by (destruct (f_plural f) eqn:E; [|congruence]; unfold the_plural, init_plural; rewrite E, E; reflexivity).
  induction O as [n kh kp|n kh kp g O1 I1 O2 I2|n kh kp g Q O I|n kh kp g O1 I1 O2 I2|n kh kp g Q O I]; cbn [lift HandleConcFacts.fine see].
  - exact K.
  - rewrite Ef. cbn [option_map]. rewrite Q1. apply I1; auto.
  - congruence.
  - rewrite Ef. cbn [option_map]. rewrite Q2. apply I1; auto.
  - congruence.
Qed.
Definition v_ans (o : @call A) (v : view) : result :=
  match v_tor v with
  | AF f => the_answer fmt f o
  | AN => match o with CX c i args => RText (fmt i args) | CXN c i i2 n args => RText (default_plural fmt i i2 n args) | _ => RPanics end
  | AU u => match o with CX c i args => RText (u_x u c i args) | CXN c i i2 n args => RText (u_xn u c i i2 n args) | _ => RPanics end
  end.
Lemma fine_file L f a o (k : result -> gprog R) : file_at s0 L a = Some f -> ready f -> fine r (k (the_answer fmt f o)) L -> fine r (file_c fmt a o k) L.
Proof.
  intros E Rf K. unfold file_c. cbn [HandleConcFacts.fine see]. rewrite E. cbn [option_map].
  apply (fine_lift (the_answer fmt f o) 6 a f); [exact E|exact Rf|apply ok_call'; reflexivity|exact K].
Qed.
Lemma fine_x L a v c i args (k : result -> gprog R) : readable L a v -> fine r (k (v_ans (CX c i args) v)) L -> fine r (x_c fmt a c i args k) L.
Proof.
  intros B K. unfold x_c. apply (fine_tor L a v _ B). intros x Hx. unfold v_ans in K. destruct x as [|b|u]; cbn [tor_is] in Hx.
  - rewrite Hx in K. exact K.
  - destruct Hx as (f & E & Ef & Rf). rewrite E in K. apply (fine_file L f b _ _ Ef Rf), K.
  - rewrite Hx in K. exact K.
Qed.
Lemma fine_xn L a v c i i2 n args (k : result -> gprog R) : readable L a v -> fine r (k (v_ans (CXN c i i2 n args) v)) L -> fine r (xn_c fmt a c i i2 n args k) L.
Proof.
  intros B K. unfold xn_c. apply (fine_tor L a v _ B). intros x Hx. unfold v_ans in K. destruct x as [|b|u]; cbn [tor_is] in Hx.
  - rewrite Hx in K. exact K.
  - destruct Hx as (f & E & Ef & Rf). rewrite E in K. apply (fine_file L f b _ _ Ef Rf), K.
  - rewrite Hx in K. exact K.
Qed.

(** ** Calls that change an own handle *)
Lemma own_at L h m v : at_view L h m v -> own_ts L h = Some (rec_of v m) /\ exists g, own_map L m = Some g /\ map_is L g (v_map v).
Proof. intros (B1 & B2 & B3 & g & B4 & B5). unfold HandleConcFacts.own_ts, HandleConcFacts.own_map. rewrite B1, B2. split; [exact B3|]. exists g. auto. Qed.
Lemma at_put L h m v v' : at_view L h m v -> v_map v' = v_map v -> at_view (put_ts L h (rec_of v' m)) h m v'.
Proof.
  intros (B1 & B2 & B3 & g & B4 & B5) E. split; [exact B1|]. split; [exact B2|]. cbn [put_ts l_ts l_map]. rewrite fset_same, E.
  split; [reflexivity|]. exists g. split; [exact B4|exact B5].
Qed.
Lemma rel_put L own vs i m v v' : (forall L' m' v', at_view L' (nth i own 0) m' v' -> (m' = m \/ l_map L m' = None) ->
     (forall h, h <> nth i own 0 -> l_ts L' h = l_ts L h) -> (forall n, n <> m -> n <> m' -> l_map L' n = l_map L n) -> data L L' -> rel L' own (upd i v' vs)) ->
  at_view L (nth i own 0) m v -> v_map v' = v_map v -> rel (put_ts L (nth i own 0) (rec_of v' m)) own (upd i v' vs).
Proof.
  intros U AV E. apply (U _ m); [apply (at_put _ _ _ v); assumption|left; reflexivity| |reflexivity|apply data_same; reflexivity].
  intros h H. cbn [put_ts l_ts]. apply fset_other, H.
Qed.
Lemma fine_set_domain L own vs i dom (k : gprog R) : rel L own vs -> i < length vs ->
  (forall L', rel L' own (upd i (v_with_domain (nth i vs vdef) dom) vs) -> fine r k L') -> fine r (set_domain_c (nth i own 0) dom k) L.
Proof.
  intros Re Hi K. destruct (rel_own L own vs i Re Hi) as (m & v & Ev & Eo & AV & U). rewrite (nth_vdef _ _ _ Ev) in K.
  unfold set_domain_c. cbn [HandleConcFacts.fine change]. rewrite (proj1 (own_at _ _ _ _ AV)). cbn [option_map]. apply K.
  apply (rel_put L own vs i m v (v_with_domain v dom) U AV). reflexivity.
Qed.
Lemma fine_set_locale L own vs i l d (k : gprog R) : rel L own vs -> i < length vs ->
  (forall L', rel L' own (upd i (v_with_locale (nth i vs vdef) (match l with [] => d | _ => norm l end)) vs) -> fine r k L') ->
  fine r (set_locale_c norm (nth i own 0) l d k) L.
Proof.
  intros Re Hi K. destruct (rel_own L own vs i Re Hi) as (m & v & Ev & Eo & AV & U). rewrite (nth_vdef _ _ _ Ev) in K.
  unfold set_locale_c. cbn [HandleConcFacts.fine change]. rewrite (proj1 (own_at _ _ _ _ AV)). cbn [option_map]. apply K.
  apply (rel_put L own vs i m v (v_with_locale v (match l with [] => d | _ => norm l end)) U AV). reflexivity.
Qed.
Lemma fine_set_source L own vs i l (k : gprog R) : rel L own vs -> i < length vs ->
  (forall L', rel L' own (upd i (v_with_source (nth i vs vdef) (norm l)) vs) -> fine r k L') -> fine r (set_source_c norm (nth i own 0) l k) L.
Proof.
  intros Re Hi K. destruct (rel_own L own vs i Re Hi) as (m & v & Ev & Eo & AV & U). rewrite (nth_vdef _ _ _ Ev) in K.
  unfold set_source_c. cbn [HandleConcFacts.fine change]. rewrite (proj1 (own_at _ _ _ _ AV)). cbn [option_map]. apply K.
  apply (rel_put L own vs i m v (v_with_source v (norm l)) U AV). reflexivity.
Qed.
Lemma fine_clear L own vs i (k : gprog R) : rel L own vs -> i < length vs ->
  (forall L', rel L' own (upd i (v_with_map (v_with_domain (nth i vs vdef) default_domain) []) vs) -> fine r k L') -> fine r (clear_c (nth i own 0) k) L.
Proof.
  intros Re Hi K. destruct (rel_own L own vs i Re Hi) as (m & v & Ev & Eo & AV & U). rewrite (nth_vdef _ _ _ Ev) in K.
  destruct (own_at _ _ _ _ AV) as [O1 _]. destruct AV as (B1 & B2 & B3 & g & B4 & B5).
  unfold clear_c. cbn [HandleConcFacts.fine]. intros m' Hm Nm. cbn [HandleConcFacts.fine change].
  assert (O1' : own_ts (put_map L m' []) (nth i own 0) = Some (rec_of v m)) by exact O1. rewrite O1'. cbn [option_map].
  assert (O3 : own_ts (put_ts (put_map L m' []) (nth i own 0) (with_map (rec_of v m) m')) (nth i own 0) = Some (with_map (rec_of v m) m')).
  { unfold HandleConcFacts.own_ts. rewrite B1. cbn [put_ts l_ts]. apply fset_same. }
  rewrite O3. cbn [option_map]. apply K. apply (U _ m').
  - split; [exact B1|]. split; [apply frz_map_ge, Hm|]. cbn [put_ts put_map l_ts l_map]. rewrite !fset_same. split; [reflexivity|].
    exists []. split; [reflexivity|apply map_is_nil].
  - right. exact Nm.
  - intros h H. cbn [put_ts put_map l_ts]. rewrite !fset_other by exact H. reflexivity.
  - intros n _ H. cbn [put_ts put_map l_map]. apply fset_other, H.
  - apply data_same; reflexivity.
Qed.
Lemma keys_mput_same {X Y} (g : gmap X) (h : gmap Y) d x y : keys g = keys h -> keys (mput d x g) = keys (mput d y h).
Proof.
  revert h. induction g as [|[k v] g IH]; intros [|[k' v'] h] E; try discriminate; [reflexivity|]. cbn [keys map fst] in E. injection E as -> E.
  cbn [mput]. destruct (beq d k'); cbn [keys map fst]; [f_equal; exact E|f_equal; apply (IH h E)].
Qed.
Lemma keys_mdel_same {X Y} (g : gmap X) (h : gmap Y) d : keys g = keys h -> keys (mdel d g) = keys (mdel d h).
Proof.
  revert h. induction g as [|[k v] g IH]; intros [|[k' v'] h] E; try discriminate; [reflexivity|]. cbn [keys map fst] in E. injection E as -> E.
  cbn [mdel]. destruct (beq d k'); cbn [keys map fst]; [exact E|f_equal; apply (IH h E)].
Qed.
Lemma map_is_del L g vm dom : map_is L g vm -> map_is L (mdel dom g) (mdel dom vm).
Proof.
  intros [[N Ek] H]. split; [split; [apply nodup_del, N|apply keys_mdel_same, Ek]|]. intros d. destruct (beq d dom) eqn:E.
  - apply beq_eq in E. subst d. rewrite mget_del_same by exact N. apply mget_del_same. rewrite <- Ek. exact N.
  - apply beq_neq in E. rewrite !mget_del_other by exact E. apply H.
Qed.
Lemma map_is_put L g vm dom t y : map_is L g vm -> tr_is L t y -> map_is L (mput dom t g) (mput dom y vm).
Proof.
  intros [[N Ek] H] T. split; [split; [apply nodup_put, N|apply keys_mput_same, Ek]|]. intros d. rewrite !mget_put. destruct (beq d dom); [exists y; auto|apply H].
Qed.
Lemma fine_remove_hit L own vs i dom (k : gprog R) : rel L own vs -> i < length vs ->
  (forall L', rel L' own (upd i (let v := nth i vs vdef in
      v_with_map (v_with_domain v (if beq (v_domain v) dom then default_domain else v_domain v)) (mdel dom (v_map v))) vs) -> fine r k L') ->
  fine r (Rd (PDomains (nth i own 0)) (fun m => Wr (PMap m) (fun g => mdel dom g)
               (Rd (PDomain (nth i own 0)) (fun d => if beq d dom then Wr (PDomain (nth i own 0)) (fun _ => default_domain) k else k)))) L.
Proof.
  intros Re Hi K. destruct (rel_own L own vs i Re Hi) as (m & v & Ev & Eo & AV & U). rewrite (nth_vdef _ _ _ Ev) in K. cbv zeta in K.
  destruct (own_at _ _ _ _ AV) as (O1 & g & O2 & Mi). destruct AV as (B1 & B2 & B3 & _).
  assert (T1 : ts_at L (nth i own 0) = Some (rec_of v m)) by (unfold HandleConcFacts.ts_at; rewrite B1; exact B3).
  cbn [HandleConcFacts.fine see change]. rewrite T1. cbn [option_map rec_of t_map change]. rewrite O2. cbn [option_map HandleConcFacts.fine see].
  assert (T2 : ts_at (put_map L m (mdel dom g)) (nth i own 0) = Some (rec_of v m)) by exact T1. rewrite T2. cbn [option_map rec_of t_domain].
  assert (Mi' : forall L', data L L' -> map_is L' (mdel dom g) (mdel dom (v_map v))) by (intros L' D; apply (map_data L); [exact D|apply map_is_del, Mi]).
  destruct (beq (v_domain v) dom).
  - cbn [HandleConcFacts.fine change].
    assert (O1' : own_ts (put_map L m (mdel dom g)) (nth i own 0) = Some (rec_of v m)) by exact O1. rewrite O1'. cbn [option_map].
    apply K. apply (U _ m).
    + split; [exact B1|]. split; [exact B2|]. cbn [put_ts put_map l_ts l_map]. rewrite !fset_same. split; [reflexivity|].
      eexists. split; [reflexivity|]. apply Mi', data_same; reflexivity.
    + left. reflexivity.
    + intros h H. cbn [put_ts put_map l_ts]. apply fset_other, H.
    + intros n _ H. cbn [put_ts put_map l_map]. apply fset_other, H.
    + apply data_same; reflexivity.
  - apply K. apply (U _ m).
    + split; [exact B1|]. split; [exact B2|]. cbn [put_ts put_map l_ts l_map]. rewrite !fset_same. split; [exact B3|].
      eexists. split; [reflexivity|]. apply Mi', data_same; reflexivity.
    + left. reflexivity.
    + reflexivity.
    + intros n _ H. cbn [put_ts put_map l_map]. apply fset_other, H.
    + apply data_same; reflexivity.
Qed.

(** ** Loading into an own handle *)
Definition shift (k : nat) (c : @tor A) : tor := match c with TFile i => TFile (k + i) | _ => c end.
Lemma add_all_shift k cs : forall n m m', (forall l, mget l m' = option_map (shift k) (mget l m)) ->
  forall l, mget l (add_all norm (k + n) cs m') = option_map (shift k) (mget l (add_all norm n cs m)).
Proof.
  induction cs as [|f cs IH]; intros n m m' H l; cbn [add_all]; [apply H|]. rewrite <- Nat.add_succ_r. apply IH. intros l'.
  destruct (fst (lang f)) as [|c x]; [apply H|]. rewrite !mget_put. destruct (beq l' (norm (c :: x))); [reflexivity|apply H].
Qed.
Lemma add_all_in cs : forall n m l (c : @tor A), mget l (add_all norm n cs m) = Some c ->
  mget l m = Some c \/ exists i f, c = TFile (n + i) /\ nth_error cs i = Some f /\ fst (lang f) <> [].
Proof.
  induction cs as [|f cs IH]; intros n m l c H; cbn [add_all] in H; [left; exact H|].
  destruct (IH _ _ _ _ H) as [Q|(i & g & Q1 & Q2 & Q3)].
  - destruct (fst (lang f)) as [|ch x] eqn:E; [left; exact Q|]. rewrite mget_put in Q. destruct (beq l (norm (ch :: x))); [|left; exact Q].
    injection Q as <-. right. exists 0, f. rewrite Nat.add_0_r, E. repeat split. discriminate.
  - right. exists (S i), g. split; [rewrite Q1; f_equal; lia|]. split; assumption.
Qed.
(** what a translation says into which the catalogs [cs] were loaded *)
Definition loaded_of (cs : list file) : gmap ator :=
  over (fun c => match c with TFile i => AF (nth i (map init_header cs) (the_file s0 0)) | TNoop => AN | TUser u => AU u end) (@add_all A norm 0 cs []).
Lemma add_all_keys cs : forall n n' (m m' : gmap (@tor A)), keys m = keys m' -> keys (add_all norm n cs m) = keys (add_all norm n' cs m').
Proof.
  induction cs as [|f cs IH]; intros n n' m m' E; cbn [add_all]; [exact E|]. apply IH. destruct (fst (lang f)); [exact E|]. apply keys_mput_same, E.
Qed.
Lemma loaded_is L t a d cs : Forall built cs -> ntr <= t -> nf <= a ->
  tr_is (put_loaded L t a {| tr_domain := d; tr_langs := add_all norm a cs [] |} (map init_header cs)) t (loaded_of cs).
Proof.
  intros Bu Ht Ha. eexists. split.
  { unfold tr_at. rewrite (proj2 (Nat.ltb_ge t ntr) Ht). cbn [put_loaded l_tr]. apply fset_same. }
  cbn [tr_langs]. split; [unfold loaded_of; rewrite keys_over; apply add_all_keys; reflexivity|].
  intros l. unfold loaded_of. rewrite mget_over. pose proof (add_all_shift a cs 0 [] [] (fun _ => eq_refl) l) as E. rewrite Nat.add_0_r in E. rewrite E.
  destruct (mget l (add_all norm 0 cs [])) as [c|] eqn:Ec; cbn [option_map]; [|reflexivity].
  destruct (add_all_in cs _ _ _ _ Ec) as [Q|(i & f & -> & Ei & Lf)]; [discriminate|]. cbn [Nat.add shift]. eexists. split; [reflexivity|].
  assert (En : nth_error (map init_header cs) i = Some (init_header f)) by (rewrite nth_error_map, Ei; reflexivity).
  cbn [tor_is]. exists (init_header f). split; [f_equal; apply nth_error_nth, En|]. split.
  - unfold file_at. rewrite (proj2 (Nat.ltb_ge (a + i) nf)) by lia. cbn [put_loaded l_file]. rewrite (proj2 (Nat.ltb_ge (a + i) a)) by lia.
    replace (a + i - a) with i by lia. exact En.
  - apply ready_header, settled_lang; [|exact Lf]. apply settled_built. rewrite Forall_forall in Bu. apply Bu, (nth_error_In _ _ Ei).
Qed.
Lemma grows_loaded L t a x fs : l_tr L t = None -> (forall b, a <= b -> l_file L b = None) -> grows L (put_loaded L t a x fs).
Proof.
  intros Nt Na. split; [auto|]. split; [auto|]. split.
  - intros t' H. cbn [put_loaded l_tr]. apply fset_other. intros ->. contradiction.
  - intros b H. cbn [put_loaded l_file]. destruct (b <? a) eqn:E; [reflexivity|]. apply Nat.ltb_ge in E. rewrite (Na b E) in H. contradiction.
Qed.
Definition bound_view (v : view) (dom : bytes) (wm wp : list event) : view :=
  if existsb okb (hits (B ".mo") wm ++ hits (B ".po") wp)
  then v_with_map v (mput dom (loaded_of (catalogs (B ".mo") wm ++ catalogs (B ".po") wp)) (v_map v))
  else v.
Lemma upd_nth_same {X} i (l : list X) x : nth_error l i = Some x -> upd i x l = l.
Proof. revert i. induction l as [|y l IH]; intros [|i] H; cbn [nth_error upd] in *; try discriminate; [congruence|]. f_equal. apply IH, H. Qed.
Lemma fine_bind L own vs i dom wm wp (k : gprog R) : rel L own vs -> i < length vs ->
  (forall L', rel L' own (upd i (bound_view (nth i vs vdef) dom wm wp) vs) -> fine r k L') -> fine r (bind_c (nth i own 0) dom wm wp k) L.
Proof.
  intros Re Hi K. unfold bind_c. cbn [HandleConcFacts.fine]. intros t a Ht Nt Ha Na. cbv zeta.
  assert (Bu : Forall built (catalogs (B ".mo") wm ++ catalogs (B ".po") wp)) by (apply Forall_app; split; apply built_catalogs).
  set (cs := catalogs (B ".mo") wm ++ catalogs (B ".po") wp) in *.
  set (x := {| tr_domain := dom; tr_langs := add_all norm a cs [] |}).
  pose proof (loaded_is L t a dom cs Bu Ht Ha) as Tr. fold x in Tr.
  apply (rel_grows _ (put_loaded L t a x (map init_header cs))) in Re; [|apply grows_loaded; assumption].
  set (L1 := put_loaded L t a x (map init_header cs)) in *.
  destruct (rel_own L1 own vs i Re Hi) as (m & v & Ev & Eo & AV & U). rewrite (nth_vdef _ _ _ Ev) in K. unfold bound_view in K. fold cs in K.
  destruct (existsb okb (hits (B ".mo") wm ++ hits (B ".po") wp)).
  - destruct (own_at _ _ _ _ AV) as (O1 & g & O2 & Mi). destruct AV as (B1 & B2 & B3 & _).
    assert (T1 : ts_at L1 (nth i own 0) = Some (rec_of v m)) by (unfold HandleConcFacts.ts_at; rewrite B1; exact B3).
    cbn [HandleConcFacts.fine see change]. rewrite T1. cbn [option_map rec_of t_map change]. rewrite O2. cbn [option_map]. apply K. apply (U _ m).
    + split; [exact B1|]. split; [exact B2|]. cbn [put_map l_ts l_map]. rewrite !fset_same. split; [exact B3|].
      eexists. split; [reflexivity|]. apply (map_data L1); [apply data_same; reflexivity|]. apply map_is_put; assumption.
    + left. reflexivity.
    + reflexivity.
    + intros n _ H. cbn [put_map l_map]. apply fset_other, H.
    + apply data_same; reflexivity.
  - apply K. rewrite (upd_nth_same _ _ _ Ev). exact Re.
Qed.

End R.

(** ** One call *)
Lemma fine_call q vs : length own0 <= length vs -> polite s0 taken own0 (length vs) q -> exists a vs', length vs' = length vs + makes q /\
  forall R (r : R) own L k, rel L own vs -> (forall own' L', rel L' own' vs' -> fine r (k a own') L') -> fine r (run_rcall fmt norm own q k) L.
Proof.
  intros Le.
  destruct q as [d| |c d|h dom|h l d|h dom|h l d|h l|h dom wm wp|h dom|h|h dom|h|h|h|h|h|h|h|[cv|]|h c i args|h c i i2 n args]; cbn [polite makes run_rcall]; intros P.
  - eexists ANone, (vs ++ [_]). split; [rewrite app_length; cbn [length]; lia|]. intros R r own L k Re K. apply fine_new. intros L' h M.
    apply K, (rel_made L); [exact Re|exact M].
  - eexists ANone, (vs ++ [_]). split; [rewrite app_length; cbn [length]; lia|]. intros R r own L k Re K. apply (fine_global r L own vs _ Re P). intros L' h M.
    apply K, (rel_made L); [exact Re|exact M].
  - eexists ANone, (vs ++ [_]). split; [rewrite app_length; cbn [length]; lia|]. intros R r own L k Re K. apply (fine_with r L own vs c d _ Re P). intros L' h M.
    apply K, (rel_made L); [exact Re|exact M].
  - eexists ANone, (vs ++ [_]). split; [rewrite app_length; cbn [length]; lia|]. intros R r own L k Re K. apply (fine_ref r L own vs h _ Re P). intros a B.
    apply (fine_D r L a _ _ _ B). intros L' h' M. apply K, (rel_made L); [exact Re|exact M].
  - eexists ANone, (vs ++ [_]). split; [rewrite app_length; cbn [length]; lia|]. intros R r own L k Re K. apply (fine_ref r L own vs h _ Re P). intros a B.
    apply (fine_L r L a _ _ _ _ B). intros L' h' M. apply K, (rel_made L); [exact Re|exact M].
  - eexists ANone, (upd (number h) _ vs). split; [rewrite upd_length; lia|]. intros R r own L k Re K. apply (fine_mine r L own vs h _ Re P). intros Hi.
    apply (fine_set_domain r L own vs (number h) dom _ Re Hi). intros L' Re'. apply K, Re'.
  - eexists ANone, (upd (number h) _ vs). split; [rewrite upd_length; lia|]. intros R r own L k Re K. apply (fine_mine r L own vs h _ Re P). intros Hi.
    apply (fine_set_locale r L own vs (number h) l d _ Re Hi). intros L' Re'. apply K, Re'.
  - eexists ANone, (upd (number h) _ vs). split; [rewrite upd_length; lia|]. intros R r own L k Re K. apply (fine_mine r L own vs h _ Re P). intros Hi.
    apply (fine_set_source r L own vs (number h) l _ Re Hi). intros L' Re'. apply K, Re'.
  - eexists ANone, (upd (number h) _ vs). split; [rewrite upd_length; lia|]. intros R r own L k Re K. apply (fine_mine r L own vs h _ Re P). intros Hi.
    apply (fine_bind r L own vs (number h) dom wm wp _ Re Hi). intros L' Re'. apply K, Re'.
  - pose proof (mine_lt vs h Le P) as Hi. unfold remove_c. destruct dom as [|ch dom].
    { exists (ABool false), vs. split; [lia|]. intros R r own L k Re K. apply (fine_mine r L own vs h _ Re P). intros _. apply K, Re. }
    destruct (v_has (nth (number h) vs vdef) (ch :: dom)) eqn:Ex.
    + eexists (ABool true), (upd (number h) _ vs). split; [rewrite upd_length; lia|]. intros R r own L k Re K. apply (fine_mine r L own vs h _ Re P). intros _.
      destruct (rel_own L own vs _ Re Hi) as (m & v & Ev & _ & AV & _).
      apply (fine_has r L _ v); [apply (at_readable _ _ _ _ AV)|]. rewrite (nth_vdef _ _ _ Ev) in Ex. rewrite Ex. cbn [negb].
      apply (fine_remove_hit r L own vs _ _ _ Re Hi). intros L' Re'. apply K, Re'.
    + exists (ABool false), vs. split; [lia|]. intros R r own L k Re K. apply (fine_mine r L own vs h _ Re P). intros _.
      destruct (rel_own L own vs _ Re Hi) as (m & v & Ev & _ & AV & _).
      apply (fine_has r L _ v); [apply (at_readable _ _ _ _ AV)|]. rewrite (nth_vdef _ _ _ Ev) in Ex. rewrite Ex. cbn [negb]. apply K, Re.
  - eexists ANone, (upd (number h) _ vs). split; [rewrite upd_length; lia|]. intros R r own L k Re K. apply (fine_mine r L own vs h _ Re P). intros Hi.
    apply (fine_clear r L own vs (number h) _ Re Hi). intros L' Re'. apply K, Re'.
  - eexists (ABool _), vs. split; [lia|]. intros R r own L k Re K. apply (fine_ref r L own vs h _ Re P). intros a B. apply (fine_has r L a _ _ _ B). apply K, Re.
  - eexists (AText _), vs. split; [lia|]. intros R r own L k Re K. apply (fine_ref r L own vs h _ Re P). intros a B. apply (fine_domain r L a _ _ B). apply K, Re.
  - eexists (AText _), vs. split; [lia|]. intros R r own L k Re K. apply (fine_ref r L own vs h _ Re P). intros a B. apply (fine_locale r L a _ _ B). apply K, Re.
  - eexists (AText _), vs. split; [lia|]. intros R r own L k Re K. apply (fine_ref r L own vs h _ Re P). intros a B. apply (fine_source r L a _ _ B). apply K, Re.
  - eexists (AText _), vs. split; [lia|]. intros R r own L k Re K. apply (fine_ref r L own vs h _ Re P). intros a B. apply (fine_used r L a _ _ B). apply K, Re.
  - eexists (ANames _), vs. split; [lia|]. intros R r own L k Re K. apply (fine_ref r L own vs h _ Re P). intros a B. apply (fine_domains r L a _ _ B). apply K, Re.
  - eexists (ALangs _ _), vs. split; [lia|]. intros R r own L k Re K. apply (fine_ref r L own vs h _ Re P). intros a B. apply (fine_locales r L a _ _ B). apply K, Re.
  - eexists (AMatched _ _ _), vs. split; [lia|]. intros R r own L k Re K. apply fine_unused.
    apply (fine_ref r L own vs HGlob _ Re P). intros a B. apply (fine_locales r L a _ _ B).
    apply (fine_ref r L own vs HGlob _ Re P). intros b B'. apply (fine_locale r L b _ _ B'). apply K, Re.
  - exists (AText cv), vs. split; [lia|]. intros R r own L k Re K. apply K, Re.
  - eexists (ALangs _ _), vs. split; [lia|]. intros R r own L k Re K.
    apply (fine_ref r L own vs HGlob _ Re P). intros a B. apply (fine_locales r L a _ _ B). apply K, Re.
  - eexists (ans_of _), vs. split; [lia|]. intros R r own L k Re K. apply (fine_ref r L own vs h _ Re P). intros a B. apply (fine_x r L a _ _ _ _ _ B). apply K, Re.
  - eexists (ans_of _), vs. split; [lia|]. intros R r own L k Re K. apply (fine_ref r L own vs h _ Re P). intros a B. apply (fine_xn r L a _ _ _ _ _ _ _ B). apply K, Re.
Qed.
Lemma fine_request qs : forall vs acc, length own0 <= length vs -> request s0 taken own0 (length vs) qs ->
  exists r, forall own L, rel L own vs -> fine r (run_request fmt norm own acc qs) L.
Proof.
  induction qs as [|q qs IH]; intros vs acc Le P; cbn [request run_request] in *.
  - exists acc. intros own L _. reflexivity.
  - destruct P as [Pq P]. destruct (fine_call q vs Le Pq) as (a & vs' & El & K). rewrite <- El in P.
    destruct (IH vs' (acc ++ [a])) as (r & F); [lia|exact P|].
    exists (match a with APanics => acc ++ [a] | _ => r end). intros own L Re. apply (K _ _ own L _ Re). intros own' L' Re'.
    destruct a; try (apply F, Re'). reflexivity.
Qed.
Lemma rel_start : rel (start_heap s0 own0) own0 (map shared_view own0).
Proof.
  exists (map (fun h => t_map (the_ts s0 h)) own0). split; [exists []; symmetry; apply app_nil_r|]. split; [exact N0|]. split.
  { assert (G : forall l, NoDup l -> Forall (fun h => h < nts) l -> NoDup (map (fun h => t_map (the_ts s0 h)) l)).
    { intros l Nl. induction Nl as [|h l Hn Nl IH]; intros Fl; cbn [map]; [constructor|]. inversion Fl as [|? ? Hh Fl']; subst. constructor; [|apply IH, Fl'].
      intros I. apply in_map_iff in I as (h' & E & I). rewrite Forall_forall in Fl'.
      assert (h' = h) by (apply (w_own _ W0); auto). subst h'. contradiction. }
    apply G; [exact N0|]. rewrite Forall_forall in *. intros h Hh. apply T0, O0, Hh. }
  split; [rewrite map_length; reflexivity|]. split; [rewrite !map_length; reflexivity|].
  intros i h m v E1 E2 E3. rewrite nth_error_map, E1 in E2, E3. cbn [option_map] in *. injection E2 as <-. injection E3 as <-.
  assert (Ih : In h own0) by apply (nth_error_In _ _ E1).
  assert (It : existsb (Nat.eqb h) taken = true) by (apply in_eqb, O0, Ih).
  assert (Io : existsb (Nat.eqb h) own0 = true) by (apply in_eqb, Ih).
  assert (Mt : forall l, In h l -> existsb (fun x => t_map (the_ts s0 x) =? t_map (the_ts s0 h)) l = true).
  { intros l Il. apply existsb_exists. exists h. split; [exact Il|apply Nat.eqb_refl]. }
  split; [unfold HandleConcFacts.frz_ts; rewrite It, Bool.andb_false_r; reflexivity|].
  split; [unfold HandleConcFacts.frz_map; rewrite (Mt taken (O0 h Ih)), Bool.andb_false_r; reflexivity|].
  cbn [start_heap l_ts l_map]. rewrite Io, (Mt own0 Ih), rec_of0. split; [reflexivity|]. eexists. split; [reflexivity|apply map_is0].
Qed.
End Calls.
