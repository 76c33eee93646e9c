(** Catalogs read from .po files. *)
From Coq Require Import Lia Permutation.
From Verif Require Import GoStr GoStrFacts TrimFacts GoQuote GoMap GoMapFacts FileModel FileSpec FileFacts
  WrapModel PoModel PoSpec PoReadFacts SortFacts PoSameFacts PoWriteFacts.

Lemma translated_valid e : is_valid e = true <-> translated e.
Proof.
  unfold is_valid, translated. destruct (e_str e), (e_strn e); cbn; split; intros H; try discriminate; auto;
    try (left; discriminate); try (right; discriminate). destruct H; congruence.
Qed.
Lemma fold_last (P : entry -> bool) es k :
  match mget k (f_entries (fold_left (fun f e => if P e then add_entry f e else f) es new_file)) with
  | Some e => exists a b, es = a ++ e :: b /\ e_key e = k /\ P e = true
                /\ forall x, In x b -> e_key x = k -> P x = false
  | None => forall x, In x es -> e_key x = k -> P x = false
  end.
Proof.
  induction es as [|e es IH] using rev_ind; [intros x []|].
  rewrite fold_left_app. cbn [fold_left]. set (f := fold_left _ es new_file) in *.
  destruct (P e) eqn:Pe.
  - rewrite add_entry_entries. destruct (bytes_dec k (e_key e)) as [-> | N].
    + rewrite mget_put_same. exists es, []. repeat split; auto. intros x [].
    + rewrite mget_put_other by congruence. destruct (mget k (f_entries f)) as [e'|].
      * destruct IH as (a & b & -> & K & Q & H). exists a, (b ++ [e]). split; [rewrite <- app_assoc; reflexivity|].
        repeat split; auto. intros x Hx Kx. apply in_app_or in Hx as [Hx|[<-|[]]]; [auto|congruence].
      * intros x Hx Kx. apply in_app_or in Hx as [Hx|[<-|[]]]; [auto|congruence].
  - destruct (mget k (f_entries f)) as [e'|].
    + destruct IH as (a & b & -> & K & Q & H). exists a, (b ++ [e]). split; [rewrite <- app_assoc; reflexivity|].
      repeat split; auto. intros x Hx Kx. apply in_app_or in Hx as [Hx|[<-|[]]]; [auto|exact Pe].
    + intros x Hx Kx. apply in_app_or in Hx as [Hx|[<-|[]]]; [auto|exact Pe].
Qed.
Lemma fold_addif_last es k : last_translated es k (mget k (f_entries (fold_left (addif false) es new_file))).
Proof.
  pose proof (fold_last is_valid es k) as H. unfold last_translated.
  change (fold_left (addif false) es new_file) with (fold_left (fun f e => if is_valid e then add_entry f e else f) es new_file).
  destruct (mget k _) as [e|].
  - destruct H as (a & b & E & K & V & N). exists a, b. repeat split; auto; [apply translated_valid, V|].
    intros x Hx Kx T. apply translated_valid in T. rewrite N in T by assumption. discriminate.
  - intros x Hx Kx T. apply translated_valid in T. rewrite H in T by assumption. discriminate.
Qed.
Lemma fold_addif_all es k :
  match mget k (f_entries (fold_left (addif true) es new_file)) with
  | Some e => In e es /\ e_key e = k
  | None => forall x, In x es -> e_key x <> k
  end.
Proof.
  pose proof (fold_last (fun _ => true) es k) as H.
  change (fold_left (addif true) es new_file) with (fold_left (fun f e => if true then add_entry f e else f) es new_file).
  cbv beta iota in H |- *. destruct (mget k _) as [e|].
  - destruct H as (a & b & -> & K & _). split; [apply in_or_app; right; left; reflexivity|exact K].
  - intros x Hx Kx. specialize (H x Hx Kx). discriminate.
Qed.
Lemma built_filed f : built f -> filed f.
Proof.
  intros [es ->]. induction es as [|e es [N F]] using rev_ind.
  - split; [constructor|intros k e []].
  - rewrite fold_left_app. cbn [fold_left]. split; rewrite add_entry_entries; [apply nodup_put, N|].
    intros k x H. apply in_mput in H as [[= -> ->]|H]; [reflexivity|apply F, H].
Qed.
Lemma run_filed {A} (fmt : bytes -> list A -> bytes) os : filed (run fmt os).
Proof.
  induction os as [|o os [N F]] using rev_ind; [split; [constructor|intros k e []]|].
  rewrite run_snoc. split; rewrite step_entries; destruct o; try assumption; [apply nodup_put, N|].
  intros k x H. apply in_mput in H as [[= -> ->]|H]; [reflexivity|apply F, H].
Qed.
Lemma filed_in f e : filed f -> (In e (vals (f_entries f)) <-> mget (e_key e) (f_entries f) = Some e).
Proof.
  intros [N F]. unfold vals. rewrite in_map_iff. split.
  - intros ([k x] & E & H). cbn in E. subst x. rewrite <- (F k e H). apply in_mget; assumption.
  - intros H. apply mget_in in H. exists (e_key e, e). auto.
Qed.
Lemma filed_get f k e : filed f -> mget k (f_entries f) = Some e -> k = e_key e.
Proof. intros [_ F] H. apply mget_in in H. apply F, H. Qed.

Theorem po_round_trip isp f out : filed f -> (forall e, In e (vals (f_entries f)) -> po_ok e) ->
  f_entries f <> [] -> saves_po isp f out ->
  exists f', read_po out = PoOk f' /\ filed f' /\
    forall k e, mget k (f_entries f') = Some e <-> mget k (f_entries f) = Some e /\ translated e.
Proof.
  intros F G Hne (l & [P S] & ->).
  assert (Gl : forall x, In x l -> po_ok x) by (intros x Hx; apply G, (Permutation_in x P), Hx).
  assert (Nl : l <> []).
  { intros ->. apply Permutation_nil in P. unfold vals in P. apply map_eq_nil in P. congruence. }
  pose proof (read_po_text isp l Nl Gl) as R. eexists. split; [exact R|].
  assert (Bf : filed (fold_left (addif false) l new_file)) by (apply built_filed, (read_built false _ _ R)).
  split; [exact Bf|]. intros k e. pose proof (fold_addif_last l k) as H. split.
  - intros E. rewrite E in H. destruct H as (a & b & El & K & T & _). split; [|exact T].
    rewrite <- K. apply filed_in; [exact F|]. apply (Permutation_in e P). rewrite El. apply in_or_app; right; left; reflexivity.
  - intros [E T]. pose proof (filed_get _ _ _ F E) as ->. apply filed_in in E; [|exact F].
    apply (Permutation_in e (Permutation_sym P)) in E as El.
    destruct (mget (e_key e) (f_entries (fold_left (addif false) l new_file))) as [e'|].
    + destruct H as (a & b & Ea & K & _). f_equal.
      assert (In e' (vals (f_entries f))) as I' by (apply (Permutation_in e' P); rewrite Ea; apply in_or_app; right; left; reflexivity).
      apply filed_in in I'; [|exact F]. apply filed_in in E; [|exact F]. rewrite K in I'. congruence.
    + exfalso. apply (H e El eq_refl T).
Qed.
Theorem pot_round_trip isp f out : filed f -> (forall e, In e (vals (f_entries f)) -> pot_ok e) ->
  f_entries f <> [] -> saves_pot isp f out ->
  exists f', read_pot out = PoOk f' /\ filed f' /\
    forall k e', mget k (f_entries f') = Some e' <-> exists e, mget k (f_entries f) = Some e /\ e' = template_of e.
Proof.
  intros F G Hne (l & [P S] & ->).
  assert (Gl : forall x, In x l -> pot_ok x) by (intros x Hx; apply G, (Permutation_in x P), Hx).
  assert (Nl : l <> []).
  { intros ->. apply Permutation_nil in P. unfold vals in P. apply map_eq_nil in P. congruence. }
  pose proof (read_pot_text isp l Nl Gl) as R. eexists. split; [exact R|].
  split; [apply built_filed, (read_built true _ _ R)|]. intros k e'.
  assert (KT : forall e, e_key (template_of e) = e_key e) by reflexivity.
  pose proof (fold_addif_all (map template_of l) k) as H. split.
  - intros E. rewrite E in H. destruct H as (I & K). apply in_map_iff in I as (e & <- & I). exists e. split; [|reflexivity].
    rewrite <- K, KT. apply filed_in; [exact F|]. apply (Permutation_in e P), I.
  - intros (e & E & ->). pose proof (filed_get _ _ _ F E) as ->. apply filed_in in E; [|exact F].
    apply (Permutation_in e (Permutation_sym P)) in E as El.
    destruct (mget (e_key e) (f_entries (fold_left (addif true) (map template_of l) new_file))) as [e'|].
    + destruct H as (I & K). apply in_map_iff in I as (x & <- & I). do 2 f_equal.
      apply (Permutation_in x P) in I. apply filed_in in I; [|exact F]. apply filed_in in E; [|exact F].
      rewrite KT in K. rewrite K in I. congruence.
    + exfalso. apply (H (template_of e)); [apply in_map, El|apply KT].
Qed.
Lemma saves_exist isp f : (exists out, saves_po isp f out) /\ exists out, saves_pot isp f out.
Proof.
  destruct (isort_sorted (vals (f_entries f))) as [P S].
  split; eexists; exists (isort (vals (f_entries f))); (split; [split; assumption|reflexivity]).
Qed.

(** ** Order independence *)
Lemma last_filter es k o : last_translated es k o <->
  last_translated (filter (fun e => beq (e_key e) k) es) k o.
Proof.
  assert (FI : forall es x, In x (filter (fun e => beq (e_key e) k) es) <-> In x es /\ e_key x = k).
  { intros es0 x. rewrite filter_In. split; intros [H1 H2]; split; auto; [apply beq_eq, H2|apply beq_eq in H2; auto]. }
  unfold last_translated. destruct o as [e|].
  - split.
    + intros (a & b & -> & K & T & N). exists (filter (fun e => beq (e_key e) k) a), (filter (fun e => beq (e_key e) k) b).
      rewrite filter_app. cbn [filter]. rewrite (proj2 (beq_eq _ _) K). repeat split; auto.
      intros x Hx. apply FI in Hx as [Hx _]. auto.
    + intros (a & b & E & K & T & N). revert a b E N. induction es as [|x es IH]; intros a b E N; [destruct a; discriminate|].
      cbn [filter] in E. destruct (beq (e_key x) k) eqn:Ex.
      * destruct a as [|y a]; cbn [app] in E; injection E as -> E.
        -- exists [], es. repeat split; auto. intros y Hy Ky. apply N; [|exact Ky]. rewrite <- E. apply FI. auto.
        -- destruct (IH a b E N) as (a' & b' & -> & Q). exists (y :: a'), b'. split; [reflexivity|exact Q].
      * destruct (IH a b E N) as (a' & b' & -> & Q). exists (x :: a'), b'. split; [reflexivity|exact Q].
  - split; intros H x Hx Kx; [apply FI in Hx as [Hx _]|]; apply H; auto. apply FI. auto.
Qed.
Lemma last_fun es k o o' : last_translated es k o -> last_translated es k o' -> o = o'.
Proof.
  assert (Q : forall es e e' , last_translated es k (Some e) -> last_translated es k (Some e') -> e = e').
  { induction es0 as [|x es0 IH] using rev_ind; intros e e' (a & b & E & K & T & N) (a' & b' & E' & K' & T' & N').
    { destruct a; discriminate. }
    destruct b as [|y b _] using rev_ind; destruct b' as [|y' b' _] using rev_ind.
    - apply app_inj_tail in E as [_ <-]. apply app_inj_tail in E' as [_ <-]. reflexivity.
    - exfalso. apply app_inj_tail in E as [_ <-]. change (e' :: b' ++ [y']) with ((e' :: b') ++ [y']) in E'.
      rewrite app_assoc in E'. apply app_inj_tail in E' as [_ <-]. apply (N' x); auto. apply in_or_app; right; left; reflexivity.
    - exfalso. apply app_inj_tail in E' as [_ <-]. change (e :: b ++ [y]) with ((e :: b) ++ [y]) in E.
      rewrite app_assoc in E. apply app_inj_tail in E as [_ <-]. apply (N x); auto. apply in_or_app; right; left; reflexivity.
    - change (e :: b ++ [y]) with ((e :: b) ++ [y]) in E. change (e' :: b' ++ [y']) with ((e' :: b') ++ [y']) in E'.
      rewrite app_assoc in E, E'. apply app_inj_tail in E as [E <-]. apply app_inj_tail in E' as [E' _].
      apply IH; [exists a, b|exists a', b']; repeat split; auto; intros z Hz; [apply N|apply N']; apply in_or_app; auto. }
  destruct o as [e|], o' as [e'|]; intros H H'.
  - f_equal. eapply Q; eassumption.
  - destruct H as (a & b & -> & K & T & _). exfalso. apply (H' e); auto. apply in_or_app; right; left; reflexivity.
  - destruct H' as (a & b & -> & K & T & _). exfalso. apply (H e'); auto. apply in_or_app; right; left; reflexivity.
  - reflexivity.
Qed.

(** ** Positions in a file *)
Lemma file_lines_model c : po_lines_of c = file_lines c. Proof. reflexivity. Qed.
Lemma filter_cr_nl (x y : bytes) : filter (fun c => negb (Ascii.eqb c CR)) (x ++ NL :: y)
  = filter (fun c => negb (Ascii.eqb c CR)) x ++ NL :: filter (fun c => negb (Ascii.eqb c CR)) y.
Proof. rewrite filter_app. reflexivity. Qed.
Lemma lines_at x : line_start x -> exists ls, file_lines x = ls ++ [[]] /\ forall y, file_lines (x ++ y) = ls ++ file_lines y.
Proof.
  intros [->|(x' & ->)].
  - exists []. split; reflexivity.
  - exists (file_lines x'). unfold file_lines. split.
    + rewrite filter_cr_nl, split_byte_app_gen. reflexivity.
    + intros y. rewrite <- app_assoc. cbn [app]. rewrite filter_cr_nl, split_byte_app_gen. reflexivity.
Qed.
Lemma line_then w y : ~ In NL w -> file_lines (w ++ NL :: y) = filter (fun c => negb (Ascii.eqb c CR)) w :: file_lines y.
Proof.
  intros H. unfold file_lines. rewrite filter_cr_nl, split_byte_app; [reflexivity|].
  intros I. apply filter_In in I as [I _]. auto.
Qed.
Lemma no_open_context_blank ls : no_open_context (ls ++ [[]]) -> no_open_context ls.
Proof.
  intros H a l b -> S W. destruct (H a l (b ++ [[]])) as (x & Hx & Wx & Sx); [rewrite <- app_assoc; reflexivity|exact S|exact W|].
  apply in_app_or in Hx as [Hx|[<-|[]]]; [exists x; auto|]. exfalso. apply Wx. reflexivity.
Qed.
Lemma same_ink_filter a b : same_ink a b ->
  filter (fun l => negb (blank l)) a = filter (fun l => negb (blank l)) b.
Proof.
  intros H. induction H as [|l a b W H IH|l a b W H IH|l a b H IH]; cbn [filter]; [reflexivity|..].
  - apply blank_white in W. rewrite W. exact IH.
  - apply blank_white in W. rewrite W. exact IH.
  - destruct (negb (blank l)); [f_equal|]; exact IH.
Qed.
Lemma same_ink_refl a : same_ink a a.
Proof. induction a; [apply SI_nil|apply SI_both; assumption]. Qed.
Lemma same_ink_app a b c : same_ink b c -> same_ink (a ++ b) (a ++ c).
Proof. intros H. induction a; [exact H|apply SI_both; assumption]. Qed.
Lemma strip_same_result r r' :
  (exists f, r = PoOk f) \/ r = PoErr -> strip_r r = strip_r r' -> same_result r r'.
Proof.
  intros [[f ->]| ->] E; destruct r' as [f'| | |]; cbn [strip_r] in E; try discriminate; cbn [same_result].
  - apply strip_answers. congruence.
  - exact I.
Qed.
Lemma read_po_total c : (exists f, read_po c = PoOk f) \/ read_po c = PoErr.
Proof.
  destruct c as [|x t]; [right; reflexivity|].
  destruct (read_outcomes (x :: t)) as [(f & f' & E & _)|[E _]]; [discriminate|left; eauto|right; exact E].
Qed.
