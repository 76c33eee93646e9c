(** Proofs about catalogs copied by value. *)
From Coq Require Import List ZArith Ascii Lia Permutation.
From Verif Require Import GoStr GoStrFacts GoMap GoMapFacts FileModel FileSpec FormsFacts FileFacts PoModel PoSpec MoModel
  PoReadFacts PoCatalogFacts PoLoadFacts MoCatalogFacts EntryModel EntryFacts CatModel CatSpec.
Import ListNotations.
Local Open Scope nat_scope.

(** ** Caches *)
Definition text_in (fl : file) : bytes := match mget (key [] []) (f_entries fl) with Some e => e_str e | None => [] end.
Definition rel (fl : file) (kv : option (bytes -> option bytes)) : Prop :=
  match f_headers fl, kv with
  | None, None => True
  | Some h, Some v => forall k, mget k h = v k
  | _, _ => False
  end
  /\ match f_plural fl with
     | None => True
     | Some p => exists h, f_headers fl = Some h /\ p = parse_plural (or_empty (mget H_plural_forms h))
     end.
Definition or_text (kv : option (bytes -> option bytes)) (t : bytes) : bytes -> option bytes :=
  match kv with Some v => v | None => header_value t end.
Lemma rel_header fl kv : rel fl kv -> rel (init_header fl) (Some (or_text kv (text_in fl))).
Proof.
  intros [H R]. unfold init_header. destruct (f_headers fl) as [h|] eqn:E.
  - destruct kv as [v|]; [|destruct H]. cbn [or_text]. split; rewrite E; assumption.
  - destruct kv as [v|]; [destruct H|]. split; cbn [f_headers f_plural or_text].
    + intros k. unfold text_in. destruct (mget (key [] []) (f_entries fl)) as [e|]; [apply parse_headers_get|]. rewrite <- parse_headers_get. reflexivity.
    + destruct (f_plural fl); [|exact I]. destruct R as (h & Q & _). discriminate Q.
Qed.
Lemma rel_plural fl kv : rel fl kv -> rel (init_plural fl) (Some (or_text kv (text_in fl))).
Proof.
  intros R. unfold init_plural. destruct (f_plural fl) as [p|] eqn:E.
  - pose proof R as [H P]. rewrite E in P. destruct P as (h & Q & _). rewrite Q in H. destruct kv as [v|]; [exact R|destruct H].
  - cbn [get_header]. apply rel_header in R. unfold get_header. set (g := init_header fl) in *. destruct R as [H _].
    split; cbn [f_headers f_plural]; [exact H|]. destruct (f_headers g) as [h|]; [|destruct H]. exists h. auto.
Qed.
Lemma text_init fl : text_in (init_header fl) = text_in fl.
Proof. unfold text_in. rewrite init_header_entries. reflexivity. Qed.
Section Cats.
Context {A : Type}.
Variable fmt : bytes -> list A -> bytes.
Lemma xn_caches fl c i i2 n args : snd (f_xn64 fmt fl c i i2 n args) =
  match mget (key c i) (f_entries fl) with
  | Some e => if negb (is_empty (e_id2 e) && match e_strn e with [] => true | _ => false end) then init_plural fl else fl
  | None => fl
  end.
Proof.
  unfold f_xn64. destruct (mget (key c i) (f_entries fl)) as [e|]; [|reflexivity].
  destruct (is_empty (e_id2 e) && _); cbn [negb]; [reflexivity|]. cbn zeta.
  destruct (f_plural (init_plural fl)) as [p|]; [|reflexivity]. destruct (p_total p <=? 0)%Z; [reflexivity|].
  destruct (_ || _ || _); [reflexivity|]. destruct (nth_error _ _) as [t|]; [|reflexivity]. destruct (is_empty t); reflexivity.
Qed.
(** catalogs with the same entries and fields answer alike *)
Lemma rel_fields fl kv k : rel fl kv -> fst (get_header k fl) = or_text kv (text_in fl) k.
Proof. intros R. apply rel_header in R as [H _]. unfold get_header. cbn [fst]. destruct (f_headers (init_header fl)); [apply H|destruct H]. Qed.
Lemma rel_rule fl kv : rel fl kv -> f_plural (init_plural fl) = Some (parse_plural (or_empty (fst (get_header H_plural_forms fl)))).
Proof.
  intros R. unfold init_plural. destruct (f_plural fl) as [p|] eqn:E; [|destruct (get_header H_plural_forms fl); reflexivity].
  destruct R as [H P]. rewrite E in P. destruct P as (h & Q & ->). rewrite E. unfold get_header, init_header. rewrite Q. cbn [fst]. rewrite Q. reflexivity.
Qed.
Lemma alike fl gl kv kw : rel fl kv -> rel gl kw -> filed fl -> filed gl ->
  (forall k, mget k (f_entries fl) = mget k (f_entries gl)) -> (forall k, fst (get_header k fl) = fst (get_header k gl)) ->
  same_catalog fmt fl gl.
Proof.
  intros R R' F F' E H. unfold same_catalog.
  assert (P : Permutation (vals (f_entries fl)) (vals (f_entries gl))) by (apply filed_same; assumption).
  assert (S : forall l, sorted_entries fl l <-> sorted_entries gl l).
  { intros l. unfold sorted_entries. split; intros [Q1 Q2]; split; auto; [transitivity (vals (f_entries fl))|transitivity (vals (f_entries gl))]; auto using Permutation_sym. }
  repeat split.
  - intros c i args. unfold f_x. rewrite E. reflexivity.
  - intros c i i2 n args. unfold f_xn64. rewrite E. destruct (mget (key c i) (f_entries gl)) as [e|]; [|reflexivity].
    destruct (is_empty (e_id2 e) && _); [reflexivity|]. cbn zeta. rewrite (rel_rule _ _ R), (rel_rule _ _ R'), H. destruct (p_total _ <=? 0)%Z; [reflexivity|].
    destruct (_ || _ || _); [reflexivity|]. destruct (nth_error _ _) as [t|]; [|reflexivity]. destruct (is_empty t); reflexivity.
  - exact H.
  - unfold lang. specialize (H H_language). destruct (get_header H_language fl), (get_header H_language gl). cbn [fst] in *. congruence.
  - intros (l & Q & ->). exists l. split; [apply S, Q|reflexivity].
  - intros (l & Q & ->). exists l. split; [apply S, Q|reflexivity].
  - intros (l & Q & ->). exists l. split; [apply S, Q|reflexivity].
  - intros (l & Q & ->). exists l. split; [apply S, Q|reflexivity].
  - intros (l & Q & ->). exists l. split; [apply S, Q|reflexivity].
  - intros (l & Q & ->). exists l. split; [apply S, Q|reflexivity].
Qed.
(** ** Catalogs that were read *)
Lemma built_rel g : built g -> rel g (match f_headers g with Some _ => Some (fun k => fst (get_header k g)) | None => None end).
Proof.
  intros [es ->]. assert (Q : exists kv, rel (fold_left add_entry es new_file) kv).
  { induction es as [|e es IH] using rev_ind; [exists None; split; exact I|]. rewrite fold_left_app. cbn [fold_left].
    destruct IH as [kv R]. set (g := fold_left add_entry es new_file) in *. clearbody g. unfold add_entry. set (g1 := Build_file _ _ _).
    assert (R1 : rel g1 kv) by exact R. destruct (is_header e); [|exists kv; exact R1].
    eexists. apply rel_plural. apply rel_header. exact R1. }
  destruct Q as [kv R]. set (g := fold_left add_entry es new_file) in *. clearbody g. pose proof R as [H P]. split; [|exact P].
  destruct (f_headers g) as [h|] eqn:E; [|exact I]. intros k. unfold get_header, init_header. rewrite E. cbn [fst]. rewrite E. reflexivity.
Qed.
Implicit Types (os r : list (cop A)) (o : cop A).
Lemma got_built o g : got o = Some g -> built g.
Proof.
  destruct o; cbn [got]; intros H; try discriminate.
  - destruct (read_po content) eqn:E; try discriminate. injection H as <-. eapply read_built, E.
  - destruct (read_pot content) eqn:E; try discriminate. injection H as <-. eapply read_built, E.
  - destruct (read_mo content) eqn:E; try discriminate. injection H as <-. eapply read_mo_built, E.
Qed.

(** ** The store *)
Definition tidy (m : gmap entry) : Prop := NoDup (keys m) /\ forall k e, In (k, e) m -> k = e_key e.
(** which catalogs share a map: [ids] are the names of the maps *)
Definition tables_ok os (s : cstore) : Prop :=
  length (cs_files s) = cats os
  /\ exists ids, length ids = length (cs_maps s) /\ NoDup ids /\ (forall t, In t ids -> t < length os)
     /\ forall f, f < cats os ->
          match c_map (the_cat s f) with
          | None => table os f = None
          | Some m => exists t, nth_error ids m = Some t /\ table os f = Some t
          end.
Definition inv os (s : cstore) : Prop :=
  tables_ok os s /\ (forall m, In m (cs_maps s) -> tidy m)
  /\ (forall f k, f < cats os -> mget k (f_entries (cview s f)) = listed os f k)
  /\ (forall f, f < cats os -> rel (cview s f) (kept os f)).
Lemma map_lt os s f m : tables_ok os s -> f < cats os -> c_map (the_cat s f) = Some m -> m < length (cs_maps s).
Proof.
  intros (_ & ids & L & _ & _ & T) F E. specialize (T f F). rewrite E in T. destruct T as (t & Q & _). rewrite <- L. apply nth_error_Some. congruence.
Qed.
Lemma shares_map os s f g : tables_ok os s -> f < cats os -> g < cats os ->
  (shares os f g = true <-> exists m, c_map (the_cat s f) = Some m /\ c_map (the_cat s g) = Some m).
Proof.
  intros (_ & ids & L & N & _ & T) F G. pose proof (T f F) as Tf. pose proof (T g G) as Tg. unfold shares. split.
  - destruct (c_map (the_cat s f)) as [m|]; [|rewrite Tf; discriminate]. destruct Tf as (t & Q & ->).
    destruct (c_map (the_cat s g)) as [m'|]; [|rewrite Tg; discriminate]. destruct Tg as (t' & Q' & ->).
    intros E. apply Nat.eqb_eq in E as <-. exists m. split; [reflexivity|]. f_equal.
    apply (proj1 (NoDup_nth_error ids) N); [apply nth_error_Some; congruence|congruence].
  - intros (m & E & E'). rewrite E in Tf. rewrite E' in Tg. destruct Tf as (t & Q & ->), Tg as (t' & Q' & ->). apply Nat.eqb_eq. congruence.
Qed.
(** nothing that a catalog shows is changed *)
Lemma inv_skip os s o : inv os s -> cats (o :: os) = cats os -> (forall f, f < cats os -> table (o :: os) f = table os f) ->
  (forall f k, f < cats os -> listed (o :: os) f k = listed os f k) -> (forall f, f < cats os -> kept (o :: os) f = kept os f) -> inv (o :: os) s.
Proof.
  intros ((L & ids & L1 & N & B & T) & Ti & Li & K) C T' Li' K'. split; [|split; [exact Ti|split]]; rewrite ?C.
  - split; [rewrite C; exact L|].
    exists ids. split; [exact L1|]. split; [exact N|]. split; [intros t I; cbn [length]; specialize (B t I); lia|].
    rewrite C. intros f F. rewrite T' by exact F. apply T, F.
  - intros f k F. rewrite Li' by exact F. apply Li, F.
  - intros f F. rewrite K' by assumption. apply K. assumption.
Qed.
(** one more catalog *)
Lemma the_new maps l c f : the_cat {| cs_maps := maps; cs_files := l ++ [c] |} f = if f =? length l then c else the_cat {| cs_maps := maps; cs_files := l |} f.
Proof.
  unfold the_cat. cbn [cs_files]. destruct (Nat.eqb_spec f (length l)) as [-> |Ne].
  - rewrite app_nth2, Nat.sub_diag by lia. reflexivity.
  - destruct (Nat.lt_ge_cases f (length l)); [apply app_nth1; assumption|]. rewrite !nth_overflow by (rewrite ?app_length; cbn [length]; lia). reflexivity.
Qed.
Lemma inv_more os s o c (extra : list (gmap entry)) : inv os s -> cats (o :: os) = S (cats os) ->
  (forall f, f < cats os -> table (o :: os) f = table os f) ->
  (forall f k, f < cats os -> listed (o :: os) f k = listed os f k) -> (forall f, f < cats os -> kept (o :: os) f = kept os f) ->
  (forall m, In m extra -> tidy m) ->
  match extra with
  | [] => match c_map c with
          | None => table (o :: os) (cats os) = None
          | Some m => exists h, h < cats os /\ c_map (the_cat s h) = Some m /\ table (o :: os) (cats os) = table os h
          end
  | [_] => c_map c = Some (length (cs_maps s)) /\ table (o :: os) (cats os) = Some (length os)
  | _ => False
  end ->
  (forall k, mget k (match c_map c with Some m => nth m (cs_maps s ++ extra) [] | None => [] end) = listed (o :: os) (cats os) k) ->
  rel {| f_entries := match c_map c with Some m => nth m (cs_maps s ++ extra) [] | None => [] end; f_headers := c_headers c; f_plural := c_rule c |} (kept (o :: os) (cats os)) ->
  inv (o :: os) {| cs_maps := cs_maps s ++ extra; cs_files := cs_files s ++ [c] |}.
Proof.
  intros (TO & Ti & Li & K) C T' Li' K' Ex Tn Ln Kn. pose proof TO as (L & ids & L1 & N & B & T). set (s' := Build_cstore _ _).
  assert (W : the_cat s' (cats os) = c) by (unfold s'; rewrite the_new, L, Nat.eqb_refl; reflexivity).
  assert (U : forall f, f < cats os -> the_cat s' f = the_cat s f).
  { intros f F. unfold s'. rewrite the_new, L. destruct (Nat.eqb_spec f (cats os)); [lia|reflexivity]. }
  assert (V : forall f, f < cats os -> cview s' f = cview s f).
  { intros f F. unfold cview. rewrite U by exact F. f_equal. destruct (c_map (the_cat s f)) as [m|] eqn:E; [|reflexivity].
    unfold s'. cbn [cs_maps]. apply app_nth1. eapply map_lt; eassumption. }
  split; [|split; [|split]].
  - split; [unfold s'; cbn [cs_files]; rewrite app_length, C, L; cbn [length]; lia|].
    destruct extra as [|m [|? ?]]; [| |destruct Tn].
    + exists ids. unfold s'. cbn [cs_maps]. rewrite app_nil_r. split; [exact L1|]. split; [exact N|]. split; [intros t I; cbn [length]; specialize (B t I); lia|].
      fold s'. intros f F. rewrite C in F. destruct (Nat.eq_dec f (cats os)) as [-> |Ne].
      * rewrite app_nil_r in *. unfold s' in W. rewrite app_nil_r in W. rewrite W. destruct (c_map c) as [m|]; [|exact Tn].
        destruct Tn as (h & Hh & E & ->). specialize (T h Hh). rewrite E in T. exact T.
      * unfold s' in U. rewrite app_nil_r in U. rewrite U, T' by lia. apply T. lia.
    + exists (ids ++ [length os]). unfold s'. cbn [cs_maps]. rewrite !app_length. cbn [length]. split; [lia|].
      split; [|split].
      * apply (Permutation_NoDup (Permutation_cons_append _ _)). constructor; [|exact N]. intros I. specialize (B _ I). lia.
      * intros t I. apply in_app_or in I as [I|[<-|[]]]; [specialize (B t I)|]; lia.
      * fold s'. intros f F. rewrite C in F. destruct (Nat.eq_dec f (cats os)) as [-> |Ne].
        -- rewrite W. destruct Tn as [-> ->]. exists (length os). split; [|reflexivity]. rewrite nth_error_app2 by lia. rewrite <- L1, Nat.sub_diag. reflexivity.
        -- rewrite U, T' by lia. specialize (T f ltac:(lia)). destruct (c_map (the_cat s f)) as [m'|]; [|exact T].
           destruct T as (t & Q & Q'). exists t. split; [|exact Q']. rewrite nth_error_app1; [exact Q|]. apply nth_error_Some. congruence.
  - intros m I. apply in_app_or in I as [I|I]; auto.
  - intros f k F. rewrite C in F. destruct (Nat.eq_dec f (cats os)) as [-> |Ne].
    + unfold cview. rewrite W. apply Ln.
    + rewrite V, Li' by lia. apply Li. lia.
  - intros f F. rewrite C in F. destruct (Nat.eq_dec f (cats os)) as [-> |Ne].
    + unfold cview. rewrite W. exact Kn.
    + rewrite V, K' by lia. apply K. lia.
Qed.
(** ** Assignments *)
Lemma the_put maps l f c x : the_cat {| cs_maps := maps; cs_files := put_at f c l |} x = if (x =? f) && (f <? length l) then c else the_cat {| cs_maps := maps; cs_files := l |} x.
Proof. unfold the_cat. cbn [cs_files]. apply nth_put_at. Qed.
Lemma caches_map s f g x : c_map (the_cat (set_caches s f g) x) = c_map (the_cat s x).
Proof.
  unfold set_caches. rewrite the_put. destruct (Nat.eqb_spec x f) as [-> |]; [|reflexivity]. destruct (f <? length (cs_files s)); reflexivity.
Qed.
Lemma caches_view s f g x : f < length (cs_files s) -> cview (set_caches s f g) x =
  if x =? f then {| f_entries := f_entries (cview s f); f_headers := f_headers g; f_plural := f_plural g |} else cview s x.
Proof.
  intros F. unfold cview at 1. rewrite caches_map. unfold set_caches. rewrite the_put. apply Nat.ltb_lt in F. rewrite F. cbn [cs_maps].
  destruct (Nat.eqb_spec x f) as [-> |]; reflexivity.
Qed.
Lemma tables_caches os s f g : tables_ok os s -> tables_ok os (set_caches s f g).
Proof.
  intros (L & ids & L1 & N & B & T). split; [unfold set_caches; cbn [cs_files]; rewrite put_at_length; exact L|].
  exists ids. repeat split; auto. intros x X. rewrite caches_map. apply T, X.
Qed.
Lemma tables_skip os s o : tables_ok os s -> cats (o :: os) = cats os -> (forall f, f < cats os -> table (o :: os) f = table os f) -> tables_ok (o :: os) s.
Proof.
  intros (L & ids & L1 & N & B & T) C T'. split; [congruence|]. exists ids. split; [exact L1|]. split; [exact N|].
  split; [intros t I; cbn [length]; specialize (B t I); lia|]. rewrite C. intros f F. rewrite T' by exact F. apply T, F.
Qed.
Lemma inv_caches os s o f g : inv os s -> f < cats os -> cats (o :: os) = cats os ->
  (forall x, x < cats os -> table (o :: os) x = table os x) -> (forall x k, x < cats os -> listed (o :: os) x k = listed os x k) ->
  (forall x, x < cats os -> x <> f -> kept (o :: os) x = kept os x) ->
  rel {| f_entries := f_entries (cview s f); f_headers := f_headers g; f_plural := f_plural g |} (kept (o :: os) f) ->
  inv (o :: os) (set_caches s f g).
Proof.
  intros (TO & Ti & Li & K) F C T' Li' K' R. pose proof TO as (L & _). split; [|split; [exact Ti|split]].
  - apply tables_caches, tables_skip; assumption.
  - intros x k X. rewrite C in X. rewrite caches_view by lia. rewrite Li' by exact X. rewrite <- Li by exact X. destruct (Nat.eqb_spec x f) as [-> |]; reflexivity.
  - intros x X. rewrite C in X. rewrite caches_view by lia. destruct (Nat.eqb_spec x f) as [-> |Ne]; [exact R|]. rewrite K' by assumption. apply K, X.
Qed.
(** ** Making the map *)
Lemma need_at s f : f < length (cs_files s) -> exists m, c_map (the_cat (need_map s f) f) = Some m.
Proof.
  intros F. unfold need_map. destruct (c_map (the_cat s f)) as [m|] eqn:E; [exists m; exact E|]. rewrite the_put, Nat.eqb_refl. apply Nat.ltb_lt in F. rewrite F. eexists. reflexivity.
Qed.
Lemma need_length s f : length (cs_files (need_map s f)) = length (cs_files s).
Proof. unfold need_map. destruct (c_map (the_cat s f)); [reflexivity|]. cbn [cs_files]. apply put_at_length. Qed.
Lemma need_view os s f x : tables_ok os s -> f < cats os -> x < cats os -> cview (need_map s f) x = cview s x.
Proof.
  intros TO F X. unfold need_map. destruct (c_map (the_cat s f)) as [m|] eqn:E; [reflexivity|]. unfold cview. rewrite the_put.
  pose proof TO as (L & _). rewrite L. assert (Q : (f <? cats os) = true) by (apply Nat.ltb_lt, F). rewrite Q. destruct (Nat.eqb_spec x f) as [-> |]; cbn [andb c_map c_headers c_rule cs_maps].
  - rewrite E. rewrite app_nth2, Nat.sub_diag by lia. reflexivity.
  - change (the_cat {| cs_maps := cs_maps s ++ [[]]; cs_files := cs_files s |} x) with (the_cat s x). f_equal.
    destruct (c_map (the_cat s x)) as [m|] eqn:E'; [|reflexivity]. apply app_nth1. eapply map_lt; eassumption.
Qed.
Lemma need_tables os s f e : tables_ok os s -> f < cats os -> tables_ok (CAdd (Some f) e :: os) (need_map s f).
Proof.
  intros TO F. pose proof TO as (L & ids & L1 & N & B & T). pose proof (T f F) as Tf.
  assert (C : cats (CAdd (Some f) e :: os) = cats os) by (cbn; lia).
  assert (Q : (f <? length (cs_files s)) = true) by (apply Nat.ltb_lt; lia).
  split; [rewrite need_length, C; exact L|]. unfold need_map. destruct (c_map (the_cat s f)) as [m|] eqn:E.
  - exists ids. split; [exact L1|]. split; [exact N|]. split; [intros t I; cbn [length]; specialize (B t I); lia|]. rewrite C. intros x X. cbn [table].
    destruct (Nat.eqb_spec x f) as [-> |]; [|apply T, X]. rewrite E. destruct Tf as (t & Q1 & ->). eauto.
  - exists (ids ++ [length os]). cbn [cs_maps length]. rewrite !app_length. cbn [length]. split; [lia|]. split; [|split].
    + apply (Permutation_NoDup (Permutation_cons_append _ _)). constructor; [|exact N]. intros I. specialize (B _ I). lia.
    + intros t I. apply in_app_or in I as [I|[<-|[]]]; [specialize (B t I)|]; lia.
    + rewrite C. intros x X. rewrite the_put, Q. cbn [table]. destruct (Nat.eqb_spec x f) as [-> |]; cbn [andb c_map].
      * rewrite Tf. exists (length os). split; [|reflexivity]. rewrite nth_error_app2 by lia. rewrite <- L1, Nat.sub_diag. reflexivity.
      * change (the_cat {| cs_maps := cs_maps s ++ [[]]; cs_files := cs_files s |} x) with (the_cat s x). specialize (T x X).
        destruct (c_map (the_cat s x)) as [m|]; [|exact T]. destruct T as (t & Q1 & Q2). exists t. split; [|exact Q2].
        rewrite nth_error_app1; [exact Q1|]. apply nth_error_Some. congruence.
Qed.
Lemma need_tidy s f : (forall m, In m (cs_maps s) -> tidy m) -> forall m, In m (cs_maps (need_map s f)) -> tidy m.
Proof.
  intros H m. unfold need_map. destruct (c_map (the_cat s f)); [apply H|]. cbn [cs_maps]. intros I. apply in_app_or in I as [I|[<-|[]]]; [apply H, I|].
  split; [constructor|intros k e []].
Qed.
(** ** Adding an entry *)
Lemma put_cats s f e x : the_cat (put_entry s f e) x = the_cat s x.
Proof. unfold put_entry. destruct (c_map (the_cat s f)); reflexivity. Qed.
Lemma put_entry_length s f e : length (cs_maps (put_entry s f e)) = length (cs_maps s) /\ length (cs_files (put_entry s f e)) = length (cs_files s).
Proof. unfold put_entry. destruct (c_map (the_cat s f)); [|auto]. cbn [cs_maps cs_files]. rewrite put_at_length. auto. Qed.
Lemma put_tables os s f e : tables_ok os s -> tables_ok os (put_entry s f e).
Proof.
  intros (L & ids & L1 & N & B & T). destruct (put_entry_length s f e) as [P1 P2]. split; [congruence|]. exists ids. split; [congruence|]. split; [exact N|]. split; [exact B|].
  intros x X. rewrite put_cats. apply T, X.
Qed.
Lemma in_put_at {X} (x y : X) n l : In y (put_at n x l) -> y = x \/ In y l.
Proof.
  revert n. induction l as [|z l IH]; intros [|n]; cbn [put_at]; try tauto.
  - intros [<-|I]; [left; reflexivity|right; right; exact I].
  - intros [<-|I]; [right; left; reflexivity|]. destruct (IH _ I); [left|right; right]; assumption.
Qed.
Lemma put_tidy s f e : (forall m, In m (cs_maps s) -> tidy m) -> forall m, In m (cs_maps (put_entry s f e)) -> tidy m.
Proof.
  intros H m. unfold put_entry. destruct (c_map (the_cat s f)) as [a|]; [|apply H]. cbn [cs_maps]. intros I. apply in_put_at in I as [-> |I]; [|apply H, I].
  assert (Q : tidy (nth a (cs_maps s) [])).
  { destruct (Nat.lt_ge_cases a (length (cs_maps s))); [apply H, nth_In; assumption|]. rewrite nth_overflow by assumption. split; [constructor|intros k x []]. }
  destruct Q as [Q1 Q2]. split; [apply nodup_put, Q1|]. intros k x I. apply in_mput in I as [[= -> ->]|I]; [reflexivity|apply Q2, I].
Qed.
Lemma put_view os s f e x m : tables_ok os s -> f < cats os -> x < cats os -> c_map (the_cat s f) = Some m ->
  cview (put_entry s f e) x = if shares os x f then {| f_entries := mput (e_key e) e (f_entries (cview s x)); f_headers := c_headers (the_cat s x); f_plural := c_rule (the_cat s x) |} else cview s x.
Proof.
  intros TO F X E. pose proof (shares_map os s x f TO X F) as SM. pose proof (map_lt _ _ _ _ TO F E) as Lm.
  unfold cview at 1. rewrite put_cats. unfold put_entry. rewrite E. cbn [cs_maps]. destruct (shares os x f).
  - destruct (proj1 SM eq_refl) as (m' & Ex & E'). assert (m' = m) as -> by congruence. unfold cview. rewrite Ex. f_equal. cbn [f_entries].
    rewrite nth_put_at, Nat.eqb_refl. apply Nat.ltb_lt in Lm. rewrite Lm. reflexivity.
  - unfold cview. f_equal. destruct (c_map (the_cat s x)) as [m'|] eqn:Ex; [|reflexivity]. rewrite nth_put_at.
    destruct (Nat.eqb_spec m' m) as [-> |]; [|reflexivity]. exfalso. assert (false = true) by (apply SM; eauto). discriminate.
Qed.
Lemma inv_add os s f e : inv os s -> f < cats os -> inv (CAdd (Some f) (Some e) :: os) (cat_add s f e).
Proof.
  intros (TO & Ti & Li & K) F. set (o := CAdd (Some f) (Some e)). assert (C : cats (o :: os) = cats os) by (cbn; lia).
  pose proof TO as (L & _). pose proof (need_tables os s f (Some e) TO F) as TN. fold o in TN.
  destruct (need_at s f ltac:(lia)) as (m & E). pose proof (put_tables _ _ f e TN) as TP.
  assert (Vp : forall x, x < cats os -> cview (put_entry (need_map s f) f e) x =
            if shares (o :: os) x f then {| f_entries := mput (e_key e) e (f_entries (cview s x)); f_headers := f_headers (cview s x); f_plural := f_plural (cview s x) |} else cview s x).
  { intros x X. rewrite (put_view (o :: os) _ f e x m TN) by (try rewrite C; assumption). rewrite (need_view os) by assumption.
    destruct (shares (o :: os) x f); [|reflexivity]. f_equal; [change (c_headers ?c) with (f_headers (cview (need_map s f) x))|change (c_rule ?c) with (f_plural (cview (need_map s f) x))];
      rewrite (need_view os) by assumption; reflexivity. }
  assert (Lp : forall x k, x < cats os -> mget k (f_entries (cview (put_entry (need_map s f) f e) x)) = listed (o :: os) x k).
  { intros x k X. rewrite Vp by exact X. cbn [listed o]. fold o. change (joined (e_ctxt e) (e_id e)) with (e_key e). destruct (shares (o :: os) x f); cbn [andb f_entries].
    - rewrite mget_put. rewrite Li by exact X. reflexivity.
    - apply Li, X. }
  assert (SF : shares (o :: os) f f = true).
  { apply (shares_map _ _ _ _ TN); rewrite ?C; auto. exists m. auto. }
  assert (Kp : forall x, x < cats os -> rel (cview (put_entry (need_map s f) f e) x) (kept os x)).
  { intros x X. rewrite Vp by exact X. destruct (shares (o :: os) x f); [|apply K, X]. exact (K x X). }
  assert (Kn : forall x, needs os o x = false -> kept (o :: os) x = kept os x).
  { intros x H. cbn [kept o got]. fold o. rewrite H. destruct (kept os x); reflexivity. }
  unfold cat_add. set (s2 := put_entry (need_map s f) f e) in *. fold (is_empty (e_id e)) in *.
  assert (H : is_header e = is_empty (e_id e)) by reflexivity. destruct (is_header e) eqn:Hh.
  - split; [apply tables_caches, TP|]. split; [|split].
    + cbn [set_caches cs_maps]. apply put_tidy, need_tidy, Ti.
    + intros x k X. rewrite C in X. assert (Ls : f < length (cs_files s2)) by (destruct TP as [Q _]; rewrite Q, C; exact F).
      rewrite caches_view by exact Ls. rewrite <- Lp by exact X. destruct (Nat.eqb_spec x f) as [-> |]; reflexivity.
    + intros x X. rewrite C in X. assert (Ls : f < length (cs_files s2)) by (destruct TP as [Q _]; rewrite Q, C; exact F).
      rewrite caches_view by exact Ls. destruct (Nat.eqb_spec x f) as [-> |Ne].
      * assert (Nd : needs os o f = true) by (cbn; rewrite Nat.eqb_refl, <- H; reflexivity).
        pose proof (rel_plural _ _ (rel_header _ _ (Kp f F))) as R. cbn [or_text] in R. rewrite ?text_init in R.
        replace (kept (o :: os) f) with (Some (or_text (kept os f) (text_in (cview s2 f)))).
        -- destruct R as [R1 R2]. split; [exact R1|exact R2].
        -- cbn [kept o got]. fold o. rewrite Nd. unfold or_text. destruct (kept os f); [reflexivity|]. do 2 f_equal. unfold text_in, head_text.
           rewrite Lp by exact F. reflexivity.
      * rewrite Kn by (cbn; destruct (Nat.eqb_spec x f); [contradiction|reflexivity]). apply Kp, X.
  - split; [exact TP|]. split; [apply put_tidy, need_tidy, Ti|split].
    + intros x k X. rewrite C in X. apply Lp, X.
    + intros x X. rewrite C in X. rewrite Kn by (cbn; rewrite <- H; apply Bool.andb_false_r). apply Kp, X.
Qed.
Lemma inv_add_nil os s f : inv os s -> f < cats os -> inv (CAdd (Some f) None :: os) (need_map s f).
Proof.
  intros (TO & Ti & Li & K) F. assert (C : cats (CAdd (Some f) None :: os) = cats os) by (cbn; lia).
  split; [apply need_tables; assumption|]. split; [apply need_tidy, Ti|split]; rewrite C.
  - intros x k X. rewrite (need_view os) by assumption. apply Li, X.
  - intros x X. rewrite (need_view os) by assumption. cbn [kept got needs]. pose proof (K x X) as R. destruct (kept os x); exact R.
Qed.
Lemma inv_read os s o g : inv os s -> got o = Some g -> inv (o :: os) (cat_read s g).
Proof.
  intros I G. pose proof (got_built o g G) as Bg. pose proof (built_rel g Bg) as Rg. pose proof (built_filed g Bg) as Fg.
  assert (C : cats (o :: os) = S (cats os)) by (destruct o; try discriminate G; cbn [cats makes]; rewrite G; lia).
  assert (T : forall x, table (o :: os) x = if x =? cats os then match f_entries g with [] => None | _ => Some (length os) end else table os x)
    by (intros x; destruct o; try discriminate G; cbn [table]; rewrite G; reflexivity).
  assert (Li : forall x k, listed (o :: os) x k = if x =? cats os then mget k (f_entries g) else listed os x k)
    by (intros x k; destruct o; try discriminate G; cbn [listed]; rewrite G; reflexivity).
  assert (K : forall x, kept (o :: os) x = if x =? cats os then match f_headers g with Some _ => Some (fun k => fst (get_header k g)) | None => None end else kept os x).
  { intros x. destruct o; try discriminate G; cbn [kept]; rewrite G; cbn [needs]; destruct (x =? cats os); auto; destruct (kept os x); reflexivity. }
  assert (Q : forall x, x < cats os -> (x =? cats os) = false) by (intros x X; apply Nat.eqb_neq; lia).
  unfold cat_read. destruct (f_entries g) as [|p m] eqn:E.
  - replace (cs_maps s) with (cs_maps s ++ []) by apply app_nil_r. apply inv_more; cbn [c_map c_headers c_rule]; auto.
    + intros x X. rewrite T, Q by exact X. reflexivity.
    + intros x k X. rewrite Li, Q by exact X. reflexivity.
    + intros x X. rewrite K, Q by exact X. reflexivity.
    + intros m [].
    + rewrite T, Nat.eqb_refl. reflexivity.
    + intros k. rewrite Li, Nat.eqb_refl. reflexivity.
    + rewrite K, Nat.eqb_refl. exact Rg.
  - apply inv_more; cbn [c_map c_headers c_rule]; auto.
    + intros x X. rewrite T, Q by exact X. reflexivity.
    + intros x k X. rewrite Li, Q by exact X. reflexivity.
    + intros x X. rewrite K, Q by exact X. reflexivity.
    + intros m' [<-|[]]. rewrite <- E. exact Fg.
    + split; [reflexivity|]. rewrite T, Nat.eqb_refl. reflexivity.
    + intros k. rewrite app_nth2, Nat.sub_diag by lia. rewrite Li, Nat.eqb_refl. reflexivity.
    + rewrite K, Nat.eqb_refl. exact Rg.
Qed.
(** ** All calls *)
Lemma kept_idle os o x : got o = None -> (forall y, needs os o y = false) -> o <> CNew -> (forall h, o <> CCopy (Some h)) -> (forall g h, o <> CAssign (Some g) (Some h)) ->
  kept (o :: os) x = kept os x.
Proof.
  intros G N N1 N2 N3. assert (Q : match kept os x with Some v => Some v | None => if needs os o x then Some (header_value (head_text (o :: os) x)) else None end = kept os x)
    by (rewrite N; destruct (kept os x); reflexivity).
  destruct o as [| | | |[h|]|[g|] [h|]| | | | | |]; cbn [kept]; rewrite ?G; try exact Q; [congruence|destruct (N2 h eq_refl)|destruct (N3 g h eq_refl)].
Qed.
Lemma inv_idle os s o : inv os s -> got o = None -> makes o = 0 -> (forall y, needs os o y = false) -> (forall f e, o <> CAdd (Some f) e) ->
  (forall g h, o <> CAssign (Some g) (Some h)) -> inv (o :: os) s.
Proof.
  intros I G M N NA NS. assert (N1 : o <> CNew) by (intros ->; discriminate M). assert (N2 : forall h, o <> CCopy (Some h)) by (intros h ->; discriminate M).
  apply inv_skip; auto.
  - cbn [cats]. lia.
  - intros f F. destruct o as [| | | |[h|]|[g|] [h|]|[g|] e| | | | |]; cbn [table]; rewrite ?G; try reflexivity; [congruence|destruct (N2 h eq_refl)|destruct (NS g h eq_refl)|destruct (NA g e eq_refl)].
  - intros f k F. destruct o as [| | | |[h|]|[g|] [h|]|[g|] [e|]| | | | |]; cbn [listed]; rewrite ?G; try reflexivity; [congruence|destruct (N2 h eq_refl)|destruct (NS g h eq_refl)|destruct (NA g (Some e) eq_refl)].
  - intros f F. apply kept_idle; assumption.
Qed.
Lemma inv_new os s : inv os s -> inv (CNew :: os) {| cs_maps := cs_maps s; cs_files := cs_files s ++ [zero_cat] |}.
Proof.
  intros I. assert (Q : forall x, x < cats os -> (x =? cats os) = false) by (intros x X; apply Nat.eqb_neq; lia).
  replace (cs_maps s) with (cs_maps s ++ []) by apply app_nil_r. apply inv_more; cbn [c_map c_headers c_rule zero_cat]; auto.
  - cbn [cats makes]. lia.
  - intros f F. cbn [table]. rewrite Q by exact F. reflexivity.
  - intros f k F. cbn [listed]. rewrite Q by exact F. reflexivity.
  - intros f F. cbn [kept needs]. rewrite Q by exact F. destruct (kept os f); reflexivity.
  - intros m [].
  - cbn [table]. rewrite Nat.eqb_refl. reflexivity.
  - intros k. cbn [listed]. rewrite Nat.eqb_refl. reflexivity.
  - cbn [kept]. rewrite Nat.eqb_refl. split; exact Logic.I.
Qed.
Lemma inv_copy os s h : inv os s -> h < cats os -> inv (CCopy (Some h) :: os) {| cs_maps := cs_maps s; cs_files := cs_files s ++ [the_cat s h] |}.
Proof.
  intros I H. assert (Q : forall x, x < cats os -> (x =? cats os) = false) by (intros x X; apply Nat.eqb_neq; lia).
  pose proof I as ((_ & ids & _ & _ & _ & T) & _ & Li & K).
  replace (cs_maps s) with (cs_maps s ++ []) by apply app_nil_r. apply inv_more; auto.
  - cbn [cats makes]. lia.
  - intros f F. cbn [table]. rewrite Q by exact F. reflexivity.
  - intros f k F. cbn [listed]. rewrite Q by exact F. reflexivity.
  - intros f F. cbn [kept needs]. rewrite Q by exact F. destruct (kept os f); reflexivity.
  - intros m [].
  - cbn [table]. rewrite Nat.eqb_refl. specialize (T h H). destruct (c_map (the_cat s h)) as [m|] eqn:E; [|exact T]. exists h. auto.
  - intros k. cbn [listed]. rewrite Nat.eqb_refl, app_nil_r. apply (Li h k H).
  - cbn [kept]. rewrite Nat.eqb_refl, app_nil_r. apply (K h H).
Qed.
Lemma inv_assign os s g h : inv os s -> g < cats os -> h < cats os ->
  inv (CAssign (Some g) (Some h) :: os) {| cs_maps := cs_maps s; cs_files := put_at g (the_cat s h) (cs_files s) |}.
Proof.
  intros (TO & Ti & Li & K) G H. pose proof TO as (L & ids & L1 & N & B & T). assert (C : cats (CAssign (Some g) (Some h) :: os) = cats os) by (cbn; lia).
  set (s' := Build_cstore _ _). assert (U : forall x, the_cat s' x = the_cat s (if x =? g then h else x)).
  { intros x. unfold s'. rewrite the_put, L. assert (Q : (g <? cats os) = true) by (apply Nat.ltb_lt, G). rewrite Q, Bool.andb_true_r. destruct (x =? g); reflexivity. }
  assert (V : forall x, cview s' x = cview s (if x =? g then h else x)) by (intros x; unfold cview; rewrite U; reflexivity).
  split; [|split; [exact Ti|split]]; rewrite ?C.
  - split; [unfold s'; cbn [cs_files]; rewrite put_at_length, C; exact L|]. exists ids. split; [exact L1|]. split; [exact N|].
    split; [intros t I; cbn [length]; specialize (B t I); lia|]. rewrite C. intros x X. rewrite U. cbn [table]. destruct (x =? g); [apply T, H|apply T, X].
  - intros x k X. rewrite V. cbn [listed]. destruct (x =? g); [apply Li, H|apply Li, X].
  - intros x X. rewrite V. cbn [kept needs]. destruct (x =? g); [apply K, H|]. pose proof (K x X) as R. destruct (kept os x); exact R.
Qed.
(** the calls that only read the header *)
Lemma inv_ask os s o f (fl : file) : inv os s -> f < cats os -> got o = None -> makes o = 0 -> (forall g e, o <> CAdd (Some g) e) ->
  (forall g h, o <> CAssign (Some g) (Some h)) -> (forall y, y <> f -> needs os o y = false) ->
  (fl = if needs os o f then fl else cview s f) ->
  (needs os o f = true -> rel fl (Some (or_text (kept os f) (text_in (cview s f)))) /\ f_entries fl = f_entries (cview s f)) ->
  inv (o :: os) (set_caches s f fl).
Proof.
  intros I F G M NA NS Nd E0 E1. assert (N1 : o <> CNew) by (intros ->; discriminate M). assert (N2 : forall h, o <> CCopy (Some h)) by (intros h ->; discriminate M).
  assert (T : forall x, table (o :: os) x = table os x).
  { intros x. destruct o as [| | | |[h|]|[g|] [h|]|[g|] e| | | | |]; cbn [table]; rewrite ?G; try reflexivity; [congruence|destruct (N2 h eq_refl)|destruct (NS g h eq_refl)|destruct (NA g e eq_refl)]. }
  assert (Li : forall x k, listed (o :: os) x k = listed os x k).
  { intros x k. destruct o as [| | | |[h|]|[g|] [h|]|[g|] [e|]| | | | |]; cbn [listed]; rewrite ?G; try reflexivity; [congruence|destruct (N2 h eq_refl)|destruct (NS g h eq_refl)|destruct (NA g (Some e) eq_refl)]. }
  assert (K : forall x, kept (o :: os) x = match kept os x with Some v => Some v | None => if needs os o x then Some (header_value (head_text (o :: os) x)) else None end).
  { intros x. destruct o as [| | | |[h|]|[g|] [h|]| | | | | |]; cbn [kept]; rewrite ?G; try reflexivity; [congruence|destruct (N2 h eq_refl)|destruct (NS g h eq_refl)]. }
  pose proof I as (_ & _ & Li0 & K0). apply inv_caches; auto.
  - cbn [cats]. lia.
  - intros x X Ne. rewrite K, Nd by exact Ne. destruct (kept os x); reflexivity.
  - destruct (needs os o f) eqn:E.
    + destruct (E1 eq_refl) as [R En]. rewrite <- En. rewrite K, E. replace (match kept os f with Some v => Some v | None => Some (header_value (head_text (o :: os) f)) end)
        with (Some (or_text (kept os f) (text_in (cview s f)))); [exact R|]. unfold or_text. destruct (kept os f); [reflexivity|]. do 2 f_equal.
      unfold text_in, head_text. rewrite Li, Li0 by exact F. reflexivity.
    + rewrite E0. rewrite K, E. pose proof (K0 f F) as R. destruct (kept os f); exact R.
Qed.
Theorem inv_step os s o : inv os s -> cuses os o -> inv (o :: os) (snd (cstep fmt s o)).
Proof.
  intros I U. destruct o as [|c|c|c|[h|]|[g|] [h|]|[f|] [e|]|[f|] k|[f|]|[f|] c i args|[f|] c i i2 n args|[f|]]; cbn [cstep snd cuses about known] in *;
    try (apply inv_idle; [exact I|reflexivity|reflexivity|reflexivity|discriminate|discriminate]).
  - apply inv_new, I.
  - destruct (got (A:=A) (CReadPo c)) as [g|] eqn:G; [|apply inv_idle; auto; try discriminate; [|cbn [makes]; rewrite G; reflexivity]].
    + cbn [got] in G. destruct (read_po c) eqn:E; try discriminate. apply inv_read; [exact I|]. cbn [got]. rewrite E. reflexivity.
    + cbn [got] in G. destruct (read_po c); [discriminate|exact I..].
  - destruct (got (A:=A) (CReadPot c)) as [g|] eqn:G; [|apply inv_idle; auto; try discriminate; [|cbn [makes]; rewrite G; reflexivity]].
    + cbn [got] in G. destruct (read_pot c) eqn:E; try discriminate. apply inv_read; [exact I|]. cbn [got]. rewrite E. reflexivity.
    + cbn [got] in G. destruct (read_pot c); [discriminate|exact I..].
  - destruct (got (A:=A) (CReadMo c)) as [g|] eqn:G; [|apply inv_idle; auto; try discriminate; [|cbn [makes]; rewrite G; reflexivity]].
    + cbn [got] in G. destruct (read_mo c) eqn:E; try discriminate. apply inv_read; [exact I|]. cbn [got]. rewrite E. reflexivity.
    + cbn [got] in G. destruct (read_mo c); [discriminate|exact I..].
  - apply inv_copy; assumption.
  - apply inv_assign; tauto.
  - apply inv_add; assumption.
  - apply inv_add_nil; assumption.
  - pose proof I as (_ & _ & _ & K). apply inv_ask; auto; try discriminate; cbn [needs].
    + intros y Ne. apply Nat.eqb_neq, Ne.
    + rewrite Nat.eqb_refl. reflexivity.
    + intros _. split; [apply rel_header, K, U|apply get_header_entries].
  - pose proof I as (_ & _ & _ & K). apply inv_ask; auto; try discriminate; cbn [needs].
    + intros y Ne. apply Nat.eqb_neq, Ne.
    + rewrite Nat.eqb_refl. reflexivity.
    + intros _. rewrite lang_file. split; [apply rel_header, K, U|apply init_header_entries].
  - pose proof I as (_ & _ & Li & K). rewrite xn_caches. change (key c i) with (joined c i). rewrite Li by exact U. apply inv_ask; auto; try discriminate; cbn [needs].
    + intros y Ne. apply Nat.eqb_neq in Ne. rewrite Ne. reflexivity.
    + rewrite Nat.eqb_refl. cbn [andb]. destruct (listed os f (joined c i)) as [e|]; [|reflexivity]. destruct (negb _); reflexivity.
    + rewrite Nat.eqb_refl. cbn [andb]. destruct (listed os f (joined c i)) as [e|]; [|discriminate]. intros ->.
      split; [apply rel_plural, K, U|apply init_plural_entries].
Qed.
Theorem inv_run os : cproper os -> inv os (crun fmt os).
Proof.
  induction os as [|o r IH]; intros P.
  - split; [|split; [intros m []|split; intros f; cbn; lia]]. split; [reflexivity|]. exists []. split; [reflexivity|]. split; [constructor|]. split; [intros t []|]. cbn; lia.
  - destruct P as [P U]. cbn [crun]. apply inv_step; auto.
Qed.
End Cats.
