(** Facts about package t. *)
From Coq Require Import Lia Permutation.
From Verif Require Import GoStr GoStrFacts GoMap GoMapFacts FileModel FileFacts PoModel MoModel TransModel TransSpec.

Lemma language_named {A} (s : @state A) x : language_of s x = fst (tor_lang s x).
Proof. destruct x as [|a|u]; cbn [language_of tor_lang]; [reflexivity| |reflexivity]. destruct (lang (the_file s a)); reflexivity. Qed.
(** ** Updates of lists *)
Section Upd.
Context {X : Type}.
Implicit Types l : list X.
Lemma upd_length n x l : length (upd n x l) = length l.
Proof. revert n; induction l as [|y l IH]; intros [|n]; cbn [upd length]; auto. Qed.
Lemma nth_upd_same n x l d : n < length l -> nth n (upd n x l) d = x.
Proof. revert n; induction l as [|y l IH]; intros [|n] H; cbn [upd nth length] in *; try lia; auto. apply IH; lia. Qed.
Lemma nth_upd_other n m x l d : m <> n -> nth m (upd n x l) d = nth m l d.
Proof. revert n m; induction l as [|y l IH]; intros [|n] [|m] H; cbn [upd nth]; auto; try lia. Qed.
Lemma upd_last l x y : upd (length l) y (l ++ [x]) = l ++ [y].
Proof. induction l as [|z l IH]; cbn [length app upd]; [reflexivity|]. f_equal. exact IH. Qed.
Lemma upd_app1 n x l r : n < length l -> upd n x (l ++ r) = upd n x l ++ r.
Proof. revert n; induction l as [|y l IH]; intros [|n] H; cbn [length app upd] in *; try lia; auto. f_equal. apply IH; lia. Qed.
Lemma upd_upd n x y l : upd n x (upd n y l) = upd n x l.
Proof. revert n; induction l as [|z l IH]; intros [|n]; cbn [upd]; auto. f_equal. apply IH. Qed.
Lemma upd_same n l d : upd n (nth n l d) l = l.
Proof. revert n; induction l as [|z l IH]; intros [|n]; cbn [upd nth]; auto. f_equal. apply IH. Qed.
Lemma nth_app_old n l r d : n < length l -> nth n (l ++ r) d = nth n l d.
Proof. intros H. apply app_nth1, H. Qed.
Lemma nth_new l x d : nth (length l) (l ++ [x]) d = x.
Proof. rewrite app_nth2 by lia. rewrite Nat.sub_diag. reflexivity. Qed.
End Upd.

(** ** Files that answer alike *)
Lemma same_file_refl f : same_file f f. Proof. repeat split. Qed.
Lemma same_file_trans f g h : same_file f g -> same_file g h -> same_file f h.
Proof. intros (A & B & C) (A' & B' & C'). repeat split; congruence. Qed.
Lemma same_file_sym f g : same_file f g -> same_file g f.
Proof. intros (A & B & C). repeat split; congruence. Qed.
Lemma same_init_header f : same_file f (init_header f).
Proof. destruct f as [e [h|] [p|]]; repeat split. Qed.
Lemma same_init_plural f : same_file f (init_plural f).
Proof. destruct f as [e [h|] [p|]]; repeat split. Qed.
Lemma same_lang f f' : same_file f f' -> fst (lang f) = fst (lang f').
Proof. intros (_ & H & _). unfold lang, get_header. cbn [fst]. rewrite H. reflexivity. Qed.
Section Answers.
Context {A : Type}.
Variable fmt : bytes -> list A -> bytes.
Lemma same_x f f' c i args : same_file f f' -> f_x fmt f c i args = f_x fmt f' c i args.
Proof. intros (E & _). unfold f_x. rewrite E. reflexivity. Qed.
Lemma same_xn f f' c i i2 n args : same_file f f' -> fst (f_xn64 fmt f c i i2 n args) = fst (f_xn64 fmt f' c i i2 n args).
Proof.
  intros (E & _ & P). unfold f_xn64. rewrite E. destruct (mget _ _) as [e|]; [|reflexivity].
  destruct (_ && _); [reflexivity|]. cbn zeta. rewrite <- P. destruct (f_plural (init_plural f)) as [p|]; [|reflexivity].
  destruct (p_total p <=? 0)%Z; [reflexivity|]. cbn zeta. destruct (_ || _); [reflexivity|].
  destruct (nth_error _ _) as [s|]; [|reflexivity]. destruct (is_empty s); reflexivity.
Qed.
Lemma xn_same f c i i2 n args : same_file f (snd (f_xn64 fmt f c i i2 n args)).
Proof. destruct (xn_file fmt f c i i2 n args) as [->| ->]; [apply same_file_refl|apply same_init_plural]. Qed.
End Answers.

Section Facts.
Context {A : Type}.
Variable norm : bytes -> bytes.
Notation state := (@state A).

(** ** Well-formed states *)
(** [own]: no two handles have the same map *)
Record wf_ (own : bool) (s : state) : Prop := {
  w_maps : forall h, h < length (s_ts s) -> t_map (the_ts s h) < length (s_maps s);
  w_own_ : own = true -> forall h h', h < length (s_ts s) -> h' < length (s_ts s) -> t_map (the_ts s h) = t_map (the_ts s h') -> h = h';
  w_trs : forall m d t, mget d (the_map s m) = Some t -> t <> tr_noop /\ t < length (s_trs s);
  w_noop : tr_noop < length (s_trs s);
  w_nodup : forall m, NoDup (keys (the_map s m));
  w_tors : forall t l x, mget l (tr_langs (the_tr s t)) = Some x -> tor_known s x;
  w_global : s_global s < length (s_ts s) }.
Context {own : bool}.
Local Notation wf := (wf_ own).
Arguments w_maps {own}. Arguments w_own_ {own}. Arguments w_trs {own}. Arguments w_noop {own}. Arguments w_nodup {own}.
Arguments w_tors {own}. Arguments w_global {own}.

(** ** What a call leaves alone *)
(** translations stay, files answer alike, nothing disappears *)
Record keeps (s s' : state) : Prop := {
  k_trs : forall t, t < length (s_trs s) -> the_tr s' t = the_tr s t;
  k_trsl : length (s_trs s) <= length (s_trs s');
  k_files : forall a, a < length (s_files s) -> same_file (the_file s a) (the_file s' a);
  k_filesl : length (s_files s) <= length (s_files s') }.
Lemma keeps_refl s : keeps s s.
Proof. split; auto. intros. apply same_file_refl. Qed.
Lemma keeps_trans s1 s2 s3 : keeps s1 s2 -> keeps s2 s3 -> keeps s1 s3.
Proof.
  intros [A1 B1 C1 D1] [A2 B2 C2 D2]. split; try lia.
  - intros t H. rewrite A2 by lia. apply A1, H.
  - intros a H. apply (same_file_trans _ (the_file s2 a)); [apply C1, H|apply C2; lia].
Qed.

(** ** The loader, exactly *)
Fixpoint add_all (n : nat) (cs : list file) (m : gmap (@tor A)) : gmap tor :=
  match cs with
  | [] => m
  | f :: r => add_all (S n) r (match fst (lang f) with [] => m | l => mput (norm l) (TFile n) m end)
  end.
Definition with_files (s : state) (t : nat) (cs : list file) : state :=
  {| s_ts := s_ts s; s_maps := s_maps s;
     s_trs := upd t {| tr_domain := tr_domain (the_tr s t); tr_langs := add_all (length (s_files s)) cs (tr_langs (the_tr s t)) |} (s_trs s);
     s_files := s_files s ++ map init_header cs; s_global := s_global s |}.
Lemma with_files_nil s t : with_files s t [] = s.
Proof.
  unfold with_files. cbn [add_all map]. rewrite app_nil_r. destruct s as [a b c d e]. cbn [s_ts s_maps s_trs s_files s_global].
  f_equal. unfold the_tr. cbn [s_trs]. replace {| tr_domain := _; tr_langs := _ |} with (nth t c no_tr)
    by (destruct (nth t c no_tr); reflexivity). apply upd_same.
Qed.
Lemma with_files_app s t a b : t < length (s_trs s) -> with_files (with_files s t a) t b = with_files s t (a ++ b).
Proof.
  intros H. unfold with_files at 1 3. cbn [s_ts s_maps s_trs s_files s_global with_files]. f_equal.
  - unfold the_tr at 1 2. unfold with_files. cbn [s_trs]. rewrite nth_upd_same by exact H. rewrite upd_upd. cbn [tr_domain tr_langs s_files].
    f_equal. f_equal. rewrite app_length, map_length. generalize (length (s_files s)) as n. generalize (tr_langs (the_tr s t)) as m.
    clear. induction a as [|f a IH]; intros m n; cbn [app add_all length]; [rewrite Nat.add_0_r; reflexivity|].
    rewrite <- IH. f_equal. lia.
  - rewrite <- app_assoc, <- map_app. reflexivity.
Qed.
Lemma add_file s t f : t < length (s_trs s) ->
  snd (add_or_replace norm (snd (new_f s f)) t (TFile (length (s_files s)))) = with_files s t [f].
Proof.
  intros H. unfold add_or_replace, tor_lang, new_f. cbn [snd].
  unfold the_file. cbn [s_files]. rewrite nth_new. destruct (lang f) as [l f'] eqn:E.
  assert (Ef : f' = init_header f) by (rewrite <- (lang_file f), E; reflexivity). subst f'.
  assert (El : fst (lang f) = l) by (rewrite E; reflexivity). unfold set_file. cbn [s_files s_ts s_maps s_trs s_global].
  rewrite upd_last. unfold with_files. cbn [map add_all]. rewrite El.
  destruct l as [|c l]; cbn [snd]; [|reflexivity].
  f_equal. unfold the_tr. symmetry. replace {| tr_domain := _; tr_langs := _ |} with (nth t (s_trs s) no_tr)
    by (destruct (nth t (s_trs s) no_tr); reflexivity). apply upd_same.
Qed.
Definition cat_of (x : fsfile) : list file := match gives x with Some (Some f) => [f] | _ => [] end.
Definition okb (x : fsfile) : bool := match gives x with Some _ => true | None => false end.
Lemma load_file_spec s t x : t < length (s_trs s) -> load_file norm s t x = (okb x, with_files s t (cat_of x)).
Proof.
  intros H. unfold load_file, okb, cat_of, gives. destruct (ff_name x) as [n|]; [|rewrite with_files_nil; reflexivity].
  destruct (ff_content x) as [c|]; [|rewrite with_files_nil; reflexivity]. unfold ext_po, ext_mo.
  destruct (has_suffix (B ".po") n); [|destruct (has_suffix (B ".mo") n)].
  - unfold load_po. destruct (read_po c) as [f| | |]; try (rewrite with_files_nil; reflexivity).
    rewrite <- add_file by exact H. reflexivity.
  - unfold load_mo. destruct (read_mo c) as [f| |]; try (rewrite with_files_nil; reflexivity).
    rewrite <- add_file by exact H. reflexivity.
  - rewrite with_files_nil. reflexivity.
Qed.
Lemma with_files_trs s t cs : length (s_trs (with_files s t cs)) = length (s_trs s).
Proof. apply upd_length. Qed.
Lemma walk_spec ext t : forall w s loaded, t < length (s_trs s) ->
  walk norm ext s t loaded w = (loaded || existsb okb (hits ext w), with_files s t (catalogs ext w)).
Proof.
  assert (Cs : forall x r, flat_map (fun x => match gives x with Some (Some f) => [f] | _ => [] end) (x :: r)
                           = cat_of x ++ flat_map (fun x => match gives x with Some (Some f) => [f] | _ => [] end) r) by reflexivity.
  induction w as [|[|dir name o] r IH]; intros s loaded H; unfold catalogs; cbn [walk hits].
  - rewrite orb_false_r, with_files_nil. reflexivity.
  - rewrite orb_false_r, with_files_nil. reflexivity.
  - destruct dir; cbn [negb andb]; [apply IH, H|]. destruct (has_suffix ext name) eqn:E.
    + destruct o as [x|]; [|apply IH, H]. rewrite load_file_spec by exact H.
      rewrite IH by (rewrite with_files_trs; exact H). rewrite Cs. cbn [existsb]. rewrite orb_assoc. f_equal.
      apply with_files_app, H.
    + destruct o; apply IH, H.
Qed.
Lemma load_fs_spec s t wm wp : t < length (s_trs s) ->
  load_fs norm s t wm wp = (existsb okb (hits (B ".mo") wm ++ hits (B ".po") wp),
                            with_files s t (catalogs (B ".mo") wm ++ catalogs (B ".po") wp)).
Proof.
  intros H. unfold load_fs. rewrite walk_spec by exact H. unfold ext_mo, ext_po. cbn [orb].
  rewrite walk_spec by (rewrite with_files_trs; exact H). rewrite existsb_app, with_files_app by exact H. reflexivity.
Qed.
Lemma some_loaded_iff wm wp : existsb okb (hits (B ".mo") wm ++ hits (B ".po") wp) = true <->
  some_loaded (B ".mo") wm \/ some_loaded (B ".po") wp.
Proof.
  unfold some_loaded. rewrite existsb_exists. split.
  - intros (x & H & E). unfold okb in E. assert (gives x <> None) by (destruct (gives x); congruence).
    apply in_app_or in H as [H|H]; [left|right]; eauto.
  - intros [(x & H & E)|(x & H & E)]; exists x; (split; [apply in_or_app; auto|]); unfold okb; destruct (gives x); congruence.
Qed.
Lemma bind_fs_spec s h d wm wp :
  let cs := catalogs (B ".mo") wm ++ catalogs (B ".po") wp in
  let s' := with_files (snd (new_translation s d)) (length (s_trs s)) cs in
  bind_fs norm s h d wm wp =
  if existsb okb (hits (B ".mo") wm ++ hits (B ".po") wp)
  then set_map s' (t_map (the_ts s h)) (mput d (length (s_trs s)) (h_domains s h)) else s'.
Proof.
  cbn zeta. unfold bind_fs. destruct (new_translation s d) as [t s1] eqn:E.
  assert (Et : t = length (s_trs s)) by (unfold new_translation, new_tr in E; congruence). subst t.
  assert (E1 : snd (new_translation s d) = s1) by (rewrite E; reflexivity). cbn [snd].
  assert (L : length (s_trs s) < length (s_trs s1)) by (rewrite <- E1; cbn; rewrite app_length; cbn; lia).
  rewrite load_fs_spec by exact L. rewrite <- E1. reflexivity.
Qed.
Lemma with_files_keeps s t cs : length (s_trs s) <= t ->
  keeps s (with_files s t cs).
Proof.
  intros H. split.
  - intros x Hx. unfold the_tr, with_files. cbn [s_trs]. rewrite nth_upd_other by lia. reflexivity.
  - rewrite with_files_trs. lia.
  - intros a Ha. unfold the_file, with_files. cbn [s_files]. rewrite nth_app_old by exact Ha. apply same_file_refl.
  - cbn. rewrite app_length. lia.
Qed.
Lemma with_files_old s t cs x : x <> t -> the_tr (with_files s t cs) x = the_tr s x.
Proof. intros H. unfold the_tr, with_files. cbn [s_trs]. apply nth_upd_other, H. Qed.
Lemma with_files_files s t cs a : a < length (s_files s) -> the_file (with_files s t cs) a = the_file s a.
Proof. intros H. unfold the_file, with_files. cbn [s_files]. apply nth_app_old, H. Qed.
Lemma bind_keeps s h d wm wp : keeps s (bind_fs norm s h d wm wp).
Proof.
  rewrite bind_fs_spec. cbn zeta. set (cs := catalogs _ wm ++ _). set (s1 := snd (new_translation s d)).
  assert (K : keeps s (with_files s1 (length (s_trs s)) cs)).
  { split.
    - intros x Hx. rewrite with_files_old by lia. unfold the_tr, s1, new_translation, new_tr. cbn [snd s_trs].
      apply nth_app_old, Hx.
    - rewrite with_files_trs. unfold s1, new_translation, new_tr. cbn [snd s_trs]. rewrite app_length. lia.
    - intros a Ha. rewrite with_files_files; [apply same_file_refl|exact Ha].
    - cbn. rewrite app_length. lia. }
  destruct (existsb okb _); [|exact K]. destruct K as [K1 K2 K3 K4]. split; assumption.
Qed.

(** ** Every call keeps states well formed *)
Lemma add_all_get cs : forall n m l x, mget l (add_all n cs m) = Some x ->
  mget l m = Some x \/ exists a, x = TFile a /\ n <= a < n + length cs.
Proof.
  induction cs as [|f cs IH]; intros n m l x H; cbn [add_all length] in *; [auto|].
  apply IH in H as [H|(a & -> & H)]; [|right; exists a; split; [reflexivity|lia]].
  destruct (fst (lang f)) as [|c r]; [auto|]. rewrite mget_put in H.
  destruct (beq l (norm (c :: r))); [|auto]. injection H as <-. right. exists n. split; [reflexivity|lia].
Qed.
Lemma wf_with_files s t cs : wf s -> t < length (s_trs s) -> wf (with_files s t cs).
Proof.
  intros [W1 W2 W3 W4 W5 W6 W7] Ht. split; auto.
  - intros m d x H. rewrite with_files_trs. apply (W3 m d x H).
  - rewrite with_files_trs. exact W4.
  - intros x l y H. assert (G : forall x l y, mget l (tr_langs (the_tr s x)) = Some y -> tor_known (with_files s t cs) y).
    { intros x0 l0 y0 H0. specialize (W6 x0 l0 y0 H0). destruct y0; cbn in *; auto. rewrite app_length. lia. }
    destruct (Nat.eq_dec x t) as [->|N]; [|rewrite with_files_old in H by exact N; eapply G, H].
    unfold the_tr, with_files in H. cbn [s_trs] in H. rewrite nth_upd_same in H by exact Ht. cbn [tr_langs] in H.
    apply add_all_get in H as [H|(a & -> & H)]; [eapply G, H|]. cbn. rewrite app_length, map_length. lia.
Qed.
Lemma wf_new_tr s d : wf s -> wf (snd (new_translation s d)).
Proof.
  intros [W1 W2 W3 W4 W5 W6 W7]. split; auto.
  - intros m x t H. cbn. rewrite app_length. destruct (W3 m x t H). split; [assumption|lia].
  - cbn. rewrite app_length. lia.
  - intros t l x H. unfold the_tr, new_translation, new_tr in H. cbn [snd s_trs] in H.
    destruct (Nat.lt_ge_cases t (length (s_trs s))) as [L|L].
    + rewrite nth_app_old in H by exact L. exact (W6 t l x H).
    + destruct (Nat.eq_dec t (length (s_trs s))) as [->|N]; [rewrite nth_new in H; discriminate|].
      rewrite nth_overflow in H by (rewrite app_length; cbn; lia). discriminate.
Qed.
Lemma the_map_upd (s : state) m g x : the_map (set_map s m g) x = if Nat.eqb x m && Nat.ltb m (length (s_maps s)) then g else the_map s x.
Proof.
  unfold the_map, set_map. cbn [s_maps]. destruct (Nat.eqb_spec x m) as [->|N]; cbn [andb]; [|apply nth_upd_other, N].
  destruct (Nat.ltb_spec m (length (s_maps s))); [apply nth_upd_same; assumption|].
  rewrite !nth_overflow; try rewrite upd_length; auto.
Qed.
Lemma wf_set_map s m g : wf s -> (forall d t, mget d g = Some t -> t <> tr_noop /\ t < length (s_trs s)) ->
  NoDup (keys g) -> wf (set_map s m g).
Proof.
  intros [W1 W2 W3 W4 W5 W6 W7] G N. split; auto.
  - intros h H. unfold set_map. cbn [s_maps]. rewrite upd_length. exact (W1 h H).
  - intros x d t H. rewrite the_map_upd in H. destruct (_ && _); [exact (G d t H)|exact (W3 x d t H)].
  - intros x. rewrite the_map_upd. destruct (_ && _); [exact N|apply W5].
Qed.
Lemma wf_bind s h d wm wp : wf s -> wf (bind_fs norm s h d wm wp).
Proof.
  intros W. rewrite bind_fs_spec. cbn zeta. set (cs := catalogs _ wm ++ _). set (s1 := snd (new_translation s d)).
  assert (L : length (s_trs s1) = S (length (s_trs s))) by (unfold s1, new_translation, new_tr; cbn; rewrite app_length; cbn; lia).
  assert (W' : wf (with_files s1 (length (s_trs s)) cs)) by (apply wf_with_files; [apply wf_new_tr, W|lia]).
  destruct (existsb okb _); [|exact W']. apply wf_set_map; [exact W'| |apply nodup_put, W].
  intros x t H. rewrite with_files_trs, L. rewrite mget_put in H. destruct (beq x d).
  - injection H as <-. split; [|lia]. pose proof (w_noop s W). lia.
  - destruct (w_trs s W _ _ _ H). split; [assumption|lia].
Qed.
Lemma wf_set_ts s h r : wf s -> t_map r = t_map (the_ts s h) -> wf (set_ts s h r).
Proof.
  intros [W1 W2 W3 W4 W5 W6 W7] E. destruct (Nat.lt_ge_cases h (length (s_ts s))) as [Hh|Hh].
  - assert (M : forall x, t_map (the_ts (set_ts s h r) x) = t_map (the_ts s x)).
    { intros x. unfold the_ts, set_ts. cbn [s_ts]. destruct (Nat.eq_dec x h) as [->|N];
        [rewrite nth_upd_same by exact Hh; exact E|rewrite nth_upd_other by exact N; reflexivity]. }
    split; auto; unfold set_ts; cbn [s_ts s_maps s_global]; rewrite ?upd_length.
    + intros x Hx. fold (set_ts s h r). rewrite M. exact (W1 x Hx).
    + intros O x y Hx Hy. fold (set_ts s h r). rewrite !M. apply W2; assumption.
    + exact W7.
  - replace (set_ts s h r) with s; [split; assumption|]. destruct s as [a b c d e]. unfold set_ts. cbn in *. f_equal.
    clear -Hh. revert h Hh. induction a as [|y a IH]; intros [|h] H; cbn [upd length] in *; try lia; auto. f_equal. apply IH. lia.
Qed.
(** a new handle with a map of its own *)
Definition fresh (s : state) (r : tsrec) (g : gmap nat) : state :=
  {| s_ts := s_ts s ++ [r]; s_maps := s_maps s ++ [g]; s_trs := s_trs s; s_files := s_files s; s_global := s_global s |}.
Lemma wf_fresh s r g : wf s -> t_map r = length (s_maps s) -> NoDup (keys g) ->
  (forall d t, mget d g = Some t -> t <> tr_noop /\ t < length (s_trs s)) -> wf (fresh s r g).
Proof.
  intros [W1 W2 W3 W4 W5 W6 W7] E N G.
  assert (O : forall h, h < length (s_ts s) -> the_ts (fresh s r g) h = the_ts s h) by (intros h H; apply nth_app_old, H).
  assert (Nw : the_ts (fresh s r g) (length (s_ts s)) = r) by apply nth_new.
  assert (Mm : forall m, the_map (fresh s r g) m = the_map s m \/ the_map (fresh s r g) m = g).
  { intros m. unfold the_map, fresh. cbn [s_maps]. destruct (Nat.lt_ge_cases m (length (s_maps s))) as [L|L];
      [left; apply nth_app_old, L|]. destruct (Nat.eq_dec m (length (s_maps s))) as [->|Q]; [right; apply nth_new|left].
    rewrite !nth_overflow; auto. rewrite app_length. cbn. lia. }
  split; auto; unfold fresh; cbn [s_ts s_maps s_global]; rewrite ?app_length; cbn [length]; fold (fresh s r g).
  - intros h H. destruct (Nat.eq_dec h (length (s_ts s))) as [->|Q]; [rewrite Nw; lia|].
    rewrite O by lia. specialize (W1 h). lia.
  - intros Ow h h' H H'. destruct (Nat.eq_dec h (length (s_ts s))) as [->|Q], (Nat.eq_dec h' (length (s_ts s))) as [->|Q'].
    + reflexivity.
    + rewrite Nw, O by lia. specialize (W1 h'). lia.
    + rewrite Nw, O by lia. specialize (W1 h). lia.
    + rewrite !O by lia. apply W2; lia || exact Ow.
  - intros m d t H. destruct (Mm m) as [Q|Q]; rewrite Q in H; eauto.
  - intros m. destruct (Mm m) as [-> | ->]; auto.
  - lia.
Qed.
Lemma clone_eq s h : clone s h = (length (s_ts s), fresh s {| t_locale := h_locale s h; t_domain := h_domain s h;
  t_map := length (s_maps s); t_source := h_source s h |} (h_domains s h)).
Proof. reflexivity. Qed.
Lemma wf_clone s h : wf s -> wf (snd (clone s h)).
Proof. intros W. rewrite clone_eq. apply wf_fresh; auto; apply W. Qed.
Lemma wf_set_file s a f : wf s -> wf (set_file s a f).
Proof.
  intros [W1 W2 W3 W4 W5 W6 W7]. split; auto. intros t l x H. specialize (W6 t l x H). destruct x; cbn in *; auto.
  rewrite upd_length. exact W6.
Qed.
Lemma wf_new_f s f : wf s -> wf (snd (new_f s f)).
Proof.
  intros [W1 W2 W3 W4 W5 W6 W7]. split; auto. intros t l x H. specialize (W6 t l x H). destruct x; cbn in *; auto.
  rewrite app_length. lia.
Qed.
Lemma wf_set_tr s t r : wf s -> (forall l x, mget l (tr_langs r) = Some x -> tor_known s x) -> wf (set_tr s t r).
Proof.
  intros [W1 W2 W3 W4 W5 W6 W7] H. split; auto.
  - intros m d x E. unfold set_tr. cbn [s_trs]. rewrite upd_length. exact (W3 m d x E).
  - unfold set_tr. cbn [s_trs]. rewrite upd_length. exact W4.
  - intros x l y E. change (tor_known s y). unfold the_tr, set_tr in E. cbn [s_trs] in E.
    destruct (Nat.eq_dec x t) as [->|N]; [|rewrite nth_upd_other in E by exact N; exact (W6 x l y E)].
    destruct (Nat.lt_ge_cases t (length (s_trs s))) as [L|L].
    + rewrite nth_upd_same in E by exact L. exact (H l y E).
    + rewrite nth_overflow in E by (rewrite upd_length; exact L). discriminate.
Qed.
Lemma wf_lang s x : wf s -> wf (snd (tor_lang s x)).
Proof. intros W. destruct x as [|a|u]; [exact W| |exact W]. cbn. apply wf_set_file, W. Qed.
Lemma lang_known (s : state) x y : tor_known s y -> tor_known (snd (tor_lang s x)) y.
Proof. destruct x; auto. destruct y; auto. cbn. rewrite upd_length. auto. Qed.
Lemma wf_add (s : state) t x : wf s -> tor_known s x -> wf (snd (add_or_replace norm s t x)).
Proof.
  intros W K. unfold add_or_replace. pose proof (wf_lang s x W) as W'. pose proof (lang_known s x x K) as K'.
  destruct (tor_lang s x) as [l s']. cbn [snd] in W', K'. destruct l as [|c l]; [exact W'|]. cbn [snd].
  apply wf_set_tr; [exact W'|]. intros k y H. cbn [tr_langs] in H. rewrite mget_put in H.
  destruct (beq k _); [injection H as <-; exact K'|]. exact (w_tors s' W' _ _ _ H).
Qed.
Lemma wf_load s t cs : wf s -> t < length (s_trs s) -> wf (with_files s t cs).
Proof. apply wf_with_files. Qed.
Lemma load_po_spec s t c : t < length (s_trs s) ->
  load_po norm s t c = match read_po c with PoOk f => (true, with_files s t [f]) | _ => (false, s) end.
Proof.
  intros H. unfold load_po. destruct (read_po c) as [f| | |]; try reflexivity. rewrite <- add_file by exact H. reflexivity.
Qed.
Lemma load_mo_spec s t c : t < length (s_trs s) ->
  load_mo norm s t c = match read_mo c with MoOk f => (true, with_files s t [f]) | _ => (false, s) end.
Proof.
  intros H. unfold load_mo. destruct (read_mo c) as [f| |]; try reflexivity. rewrite <- add_file by exact H. reflexivity.
Qed.
Lemma wf_init d : wf (init d).
Proof.
  split; cbn; auto.
  - intros h H. replace h with 0 by lia. cbn. lia.
  - intros _ h h' H H' _. lia.
  - intros m x t. unfold the_map, init. cbn [s_maps]. destruct m as [|[|m]]; discriminate.
  - intros m. unfold the_map, init. cbn [s_maps]. destruct m as [|[|m]]; constructor.
  - intros t l x. unfold the_tr, init. cbn [s_trs]. destruct t as [|[|t]]; discriminate.
Qed.
Lemma wf_set_domain s h d : wf s -> wf (set_domain s h d).
Proof. intros W. apply wf_set_ts; [exact W|reflexivity]. Qed.
Lemma wf_set_locale s h l d : wf s -> wf (set_locale norm s h l d).
Proof. intros W. apply wf_set_ts; [exact W|reflexivity]. Qed.
Lemma wf_remove s h d : wf s -> wf (snd (remove_domain s h d)).
Proof.
  intros W. unfold remove_domain. destruct d as [|c d]; [exact W|]. destruct (negb _); [exact W|]. cbn [snd].
  set (s1 := set_map _ _ _). assert (W1 : wf s1).
  { apply wf_set_map; [exact W| |apply nodup_del, W]. intros x t H. apply mget_in in H. apply mdel_incl in H.
    apply in_mget in H; [|apply W]. exact (w_trs s W _ _ _ H). }
  destruct (beq _ _); [apply wf_set_domain|]; exact W1.
Qed.
Lemma wf_clear s h : wf s -> wf (clear_domains s h).
Proof.
  intros W. unfold clear_domains, new_map. cbn zeta.
  set (r := {| t_locale := _; t_domain := _; t_map := _; t_source := _ |}).
  set (s1 := {| s_ts := s_ts s; s_maps := s_maps s ++ [[]]; s_trs := s_trs s; s_files := s_files s; s_global := s_global s |}) in *.
  assert (Mm : forall m, the_map s1 m = the_map s m).
  { intros m. unfold the_map, s1. cbn [s_maps]. destruct (Nat.lt_ge_cases m (length (s_maps s))) as [L|L];
      [apply nth_app_old, L|]. destruct (Nat.eq_dec m (length (s_maps s))) as [->|Q].
    - rewrite nth_new, nth_overflow by lia. reflexivity.
    - rewrite !nth_overflow; auto. rewrite app_length. cbn. lia. }
  destruct W as [W1 W2 W3 W4 W5 W6 W7].
  assert (T : forall x, the_ts (set_ts s1 h r) x = if Nat.eqb x h && Nat.ltb h (length (s_ts s)) then r else the_ts s x).
  { intros x. unfold the_ts, set_ts, s1. cbn [s_ts]. destruct (Nat.eqb_spec x h) as [->|N]; cbn [andb];
      [|apply nth_upd_other, N].
    destruct (Nat.ltb_spec h (length (s_ts s))); [apply nth_upd_same; assumption|].
    rewrite !nth_overflow; try rewrite upd_length; auto. }
  assert (Er : t_map r = length (s_maps s)) by reflexivity.
  split; unfold set_ts, s1; cbn [s_ts s_maps s_trs s_files s_global]; rewrite ?upd_length, ?app_length; cbn [length];
    fold s1; fold (set_ts s1 h r).
  - intros x H. rewrite T. destruct (_ && _); [lia|]. specialize (W1 x H). lia.
  - intros O x y Hx Hy. rewrite !T. pose proof (W1 x Hx). pose proof (W1 y Hy).
    destruct (Nat.eqb_spec x h), (Nat.eqb_spec y h), (Nat.ltb_spec h (length (s_ts s))); cbn [andb]; subst; try lia; auto.
  - intros m d t H. assert (H' : mget d (the_map s1 m) = Some t) by exact H. rewrite Mm in H'. exact (W3 m d t H').
  - exact W4.
  - intros m. assert (H' : NoDup (keys (the_map s1 m))) by (rewrite Mm; apply W5). exact H'.
  - intros t l x H. exact (W6 t l x H).
  - exact W7.
Qed.
Lemma wf_D s h d : wf s -> wf (snd (h_D s h d)).
Proof. intros W. unfold h_D. pose proof (wf_clone s h W) as W'. destruct (clone s h). apply wf_set_domain, W'. Qed.
Lemma wf_L s h l d : wf s -> wf (snd (h_L norm s h l d)).
Proof. intros W. unfold h_L. pose proof (wf_clone s h W) as W'. destruct (clone s h). apply wf_set_locale, W'. Qed.
Lemma wf_with s c d : wf s -> wf (snd (with_context norm s c d)).
Proof.
  intros W. unfold with_context, g_clone. pose proof (wf_clone s (s_global s) W) as W'. destruct (clone s (s_global s)) as [h1 s1].
  cbn [snd] in W'. set (p := match get_ctx_locale c with Some l => _ | None => _ end).
  assert (W2 : wf (snd p)) by (unfold p; destruct (get_ctx_locale c); [apply wf_L, W'|exact W']).
  destruct p as [h2 s2]. cbn [snd] in W2. destruct (get_ctx_domain c); [apply wf_D, W2|exact W2].
Qed.
Variable fmt : bytes -> list A -> bytes.
Notation do_op := (do_op fmt norm).
Notation reach := (reach fmt norm).
Theorem wf_step s o : wf s -> known s o -> wf (do_op s o).
Proof.
  intros W K. destruct o; cbn [TransModel.do_op known] in *.
  - change (wf (fresh s {| t_locale := d; t_domain := default_domain; t_map := length (s_maps s); t_source := default_source |} [])).
    apply wf_fresh; auto; [constructor|discriminate].
  - apply wf_clone, W.
  - destruct W. split; assumption.
  - apply wf_D, W.
  - apply wf_L, W.
  - apply wf_with, W.
  - apply wf_set_domain, W.
  - apply wf_set_locale, W.
  - apply wf_set_ts; [exact W|reflexivity].
  - apply wf_bind, W.
  - apply wf_remove, W.
  - apply wf_clear, W.
  - exact W.
  - unfold h_xn64, tor_xn. destruct (the_tor s h); [exact W| |exact W].
    destruct (f_xn64 fmt _ c i i2 n args). apply wf_set_file, W.
  - apply wf_new_tr, W.
  - apply wf_add; [exact W|apply K].
  - rewrite load_po_spec by exact K. destruct (read_po content); try exact W. apply wf_with_files; assumption.
  - rewrite load_mo_spec by exact K. destruct (read_mo content); try exact W. apply wf_with_files; assumption.
  - rewrite load_fs_spec by exact K. apply wf_with_files; assumption.
  - apply wf_new_f, W.
  - apply wf_set_file, W.
Qed.
Theorem reach_any s : reach s -> wf s.
Proof. intros R. induction R as [d|s o R W K]; [apply wf_init|apply wf_step; assumption]. Qed.
End Facts.
Arguments w_maps {A own}. Arguments w_own_ {A own}. Arguments w_trs {A own}. Arguments w_noop {A own}. Arguments w_nodup {A own}.
Arguments w_tors {A own}. Arguments w_global {A own}.
Notation wf := (wf_ true).
Lemma w_own {A} (s : @state A) : wf s -> forall h h', h < length (s_ts s) -> h' < length (s_ts s) -> t_map (the_ts s h) = t_map (the_ts s h') -> h = h'.
Proof. intros W. exact (w_own_ s W eq_refl). Qed.
Theorem reach_wf {A} norm (fmt : bytes -> list A -> bytes) s : reach fmt norm s -> wf s.
Proof. apply reach_any. Qed.
