(** Merging of messages and the template file: XtModel.ctx_add and makes_pot against XtSpec.merged. *)
From Coq Require Import Lia Permutation.
From Verif Require Import GoStr GoStrFacts GoMap GoMapFacts FileModel FileFacts PoModel PoSpec PoCatalogFacts XtModel XtSpec XtFacts.
Local Open Scope Z_scope.

Lemma first_dec l k : (exists e, first_with l k e) \/ (forall x, In x l -> e_key x <> k).
Proof.
  induction l as [|x l IH]; [right; intros x []|]. destruct (bytes_dec (e_key x) k) as [E|E].
  - left. exists x, [], l. split; [reflexivity|]. split; [exact E|intros y []].
  - destruct IH as [(e & a & b & -> & K & H)|H].
    + left. exists e, (x :: a), b. split; [reflexivity|]. split; [exact K|]. intros y [<-|Hy]; auto.
    + right. intros y [<-|Hy]; auto.
Qed.
Lemma first_in l k e : first_with l k e -> In e l /\ e_key e = k.
Proof. intros (a & b & -> & K & _). split; [apply in_or_app; right; left; reflexivity|exact K]. Qed.
Lemma first_app l m k e : first_with (l ++ m) k e <-> first_with l k e \/ (forall x, In x l -> e_key x <> k) /\ first_with m k e.
Proof.
  induction l as [|x l IH]; cbn [app].
  - split; [intros H; right; split; [intros x []|exact H]|]. intros [(a & b & E & _)|[_ H]]; [destruct a; discriminate|exact H].
  - assert (C : forall l', first_with (x :: l') k e <-> e_key x = k /\ e = x \/ e_key x <> k /\ first_with l' k e).
    { intros l'. split.
      - intros (a & b & E & K & H). destruct a as [|y a]; cbn [app] in E.
        + left. assert (x = e) by congruence. subst. auto.
        + right. assert (x = y) by congruence. subst y. split; [apply H; left; reflexivity|].
          exists a, b. split; [congruence|]. split; [exact K|]. intros z Hz. apply H. right; exact Hz.
      - intros [[K ->]|[N (a & b & -> & K & H)]].
        + exists [], l'. split; [reflexivity|]. split; [exact K|intros y []].
        + exists (x :: a), b. split; [reflexivity|]. split; [exact K|]. intros z [<-|Hz]; auto. }
    rewrite !C, IH. split.
    + intros [H|[N [H|[H1 H2]]]]; [auto|auto|]. right. split; [|exact H2]. intros y [<-|Hy]; auto.
    + intros [[H|[N H]]|[H1 H2]]; [auto|auto|]. right. split; [apply H1; left; reflexivity|]. right. split; [|exact H2].
      intros y Hy. apply H1. right; exact Hy.
Qed.
Lemma first_one x k e : first_with [x] k e <-> e_key x = k /\ e = x.
Proof.
  split.
  - intros (a & b & E & K & _). destruct a as [|y [|]]; cbn [app] in E; try discriminate. assert (x = e) by congruence. subst. auto.
  - intros [K ->]. exists [], []. split; [reflexivity|]. split; [exact K|intros y []].
Qed.
Lemma first_fun l k e e' : first_with l k e -> first_with l k e' -> e = e'.
Proof.
  revert e e'. induction l as [|x l IH] using rev_ind; intros e e'.
  - intros (a & b & E & _). destruct a; discriminate.
  - rewrite !first_app. intros [H|[N H]] [H'|[N' H']].
    + apply IH; assumption.
    + apply first_in in H as [H K]. exfalso. exact (N' _ H K).
    + apply first_in in H' as [H' K]. exfalso. exact (N _ H' K).
    + apply first_one in H as [_ ->]. apply first_one in H' as [_ ->]. reflexivity.
Qed.
Lemma alike_app e l m : alike e (l ++ m) = alike e l ++ alike e m.
Proof. apply filter_app. Qed.
Lemma alike_one_yes e x : e_key x = e_key e -> e_plural x = e_plural e -> alike e [x] = [x].
Proof. intros K P. unfold alike. cbn [filter]. rewrite K, P, beq_refl, Bool.eqb_reflx. reflexivity. Qed.
Lemma alike_one_no e x : e_key x <> e_key e \/ e_plural x <> e_plural e -> alike e [x] = [].
Proof.
  intros H. unfold alike. cbn [filter]. destruct (beq_spec (e_key x) (e_key e)) as [K|K]; [|reflexivity].
  destruct (Bool.eqb_spec (e_plural x) (e_plural e)) as [P|P]; [|reflexivity]. tauto.
Qed.
Lemma picked_app {X} (P : X -> Prop) l m l' m' : picked P l m -> picked P l' m' -> picked P (l ++ l') (m ++ m').
Proof. intros H H'. induction H; cbn [app]; [exact H'|apply PK_yes; assumption|apply PK_no; assumption]. Qed.
Lemma picked_ext {X} (P Q : X -> Prop) l m : (forall x, In x l -> (P x <-> Q x)) -> picked P l m -> picked Q l m.
Proof.
  intros E H. induction H as [|x l m Px H IH|x l m Px H IH].
  - constructor.
  - apply PK_yes; [apply E; [left; reflexivity|exact Px]|]. apply IH. intros y Hy. apply E. right; exact Hy.
  - apply PK_no; [rewrite <- E; [exact Px|left; reflexivity]|]. apply IH. intros y Hy. apply E. right; exact Hy.
Qed.

(** ** The state after adding a list of messages *)
Record merges (l : list entry) (c : ctx) : Prop := {
  m_nodup : NoDup (keys (c_entries c));
  m_entries : forall k m, mget k (c_entries c) = Some m <-> merged l k m;
  m_rejected : picked (conflicts l) l (c_rejected c);
  m_plural : c_has_plural c = true <-> exists k m, mget k (c_entries c) = Some m /\ e_plural m = true }.
Lemma conflicts_app l x y : In y l -> (conflicts l y <-> conflicts (l ++ [x]) y).
Proof.
  intros I. unfold conflicts. split; intros (e & F & P); exists e; (split; [|exact P]).
  - apply first_app. left; exact F.
  - apply first_app in F as [F|[N _]]; [exact F|]. exfalso. exact (N y I eq_refl).
Qed.
Lemma merges_step l c x : merges l c -> merges (l ++ [x]) (ctx_add c x).
Proof.
    intros [N E R P]. unfold ctx_add.
    destruct (first_dec l (e_key x)) as [(e & F)|F].
    + assert (G : mget (e_key x) (c_entries c) = Some (with_cmts e (concat (map e_cmts (alike e l))))).
      { apply E. exists e. auto. }
      rewrite G. cbn [with_cmts e_plural e_cmts e_ctxt e_id e_id2 e_str e_strn].
      destruct (Bool.eqb_spec (e_plural e) (e_plural x)) as [Ep|Ep]; cbn [negb].
      * constructor; unfold c_rejected; cbn [c_entries c_err c_has_plural]; fold (c_rejected c).
        -- apply nodup_put, N.
        -- intros k m. rewrite mget_put. destruct (beq_spec k (e_key x)) as [->|Hk].
           ++ assert (Al : alike e (l ++ [x]) = alike e l ++ [x]).
              { rewrite alike_app, (alike_one_yes e x); [reflexivity| |congruence].
                apply first_in in F as [_ ->]. reflexivity. }
              split.
              ** intros X. exists e. split; [apply first_app; left; exact F|].
                 rewrite Al, map_app, concat_app. cbn [map concat]. rewrite app_nil_r. unfold with_cmts. congruence.
              ** intros (e' & F' & ->). apply first_app in F' as [F'|[N' _]].
                 --- pose proof (first_fun _ _ _ _ F F') as <-. rewrite Al, map_app, concat_app. cbn [map concat]. rewrite app_nil_r. reflexivity.
                 --- apply first_in in F as [F K]. exfalso. exact (N' _ F K).
           ++ rewrite E. unfold merged. split; intros (e' & F' & ->); exists e'.
              ** split; [apply first_app; left; exact F'|]. rewrite alike_app, alike_one_no; [rewrite app_nil_r; reflexivity|].
                 left. apply first_in in F' as [_ ->]. auto.
              ** apply first_app in F' as [F'|[_ F']].
                 --- split; [exact F'|]. rewrite alike_app, alike_one_no; [rewrite app_nil_r; reflexivity|].
                     left. apply first_in in F' as [_ ->]. auto.
                 --- apply first_one in F' as [K _]. congruence.
        -- assert (R' : picked (conflicts (l ++ [x])) (l ++ [x]) (c_rejected c ++ [])); [|rewrite app_nil_r in R'; exact R'].
           apply picked_app; [eapply picked_ext; [|exact R]; intros y Hy; apply conflicts_app, Hy|].
           apply PK_no; [|constructor]. intros (e' & F' & P'). apply first_app in F' as [F'|[N' _]].
           ++ pose proof (first_fun _ _ _ _ F F') as <-. congruence.
           ++ apply first_in in F as [F K]. exact (N' _ F K).
        -- rewrite P. split.
           ++ intros (k & m & Em & Pm). destruct (bytes_dec k (e_key x)) as [->|Hk].
              ** exists (e_key x). rewrite mget_put_same. eexists. split; [reflexivity|]. cbn [e_plural]. rewrite G in Em.
                 assert (m = with_cmts e (concat (map e_cmts (alike e l)))) by congruence. subst m. exact Pm.
              ** exists k, m. rewrite mget_put_other by exact Hk. auto.
           ++ intros (k & m & Em & Pm). destruct (bytes_dec k (e_key x)) as [->|Hk].
              ** rewrite mget_put_same in Em. exists (e_key x). eexists. split; [exact G|]. cbn [with_cmts e_plural].
                 apply (f_equal (option_map e_plural)) in Em. cbn [option_map e_plural] in Em. congruence.
              ** rewrite mget_put_other in Em by exact Hk. eauto.
      * constructor; unfold say, c_rejected; cbn [c_entries c_err c_has_plural].
        -- exact N.
        -- intros k m. rewrite E. unfold merged. split; intros (e' & F' & ->); exists e'.
           ++ split; [apply first_app; left; exact F'|]. rewrite alike_app, alike_one_no; [rewrite app_nil_r; reflexivity|].
              destruct (bytes_dec (e_key x) (e_key e')) as [K|K]; [right|left; exact K].
              pose proof (proj2 (first_in _ _ _ F')) as K'. rewrite <- K', <- K in F'.
              pose proof (first_fun _ _ _ _ F F') as <-. auto.
           ++ assert (F0 : first_with l k e').
              { apply first_app in F' as [F'|[N' F']]; [exact F'|]. apply first_one in F' as [<- _].
                apply first_in in F as [F K]. exfalso. exact (N' _ F K). }
              split; [exact F0|]. rewrite alike_app, alike_one_no; [rewrite app_nil_r; reflexivity|].
              destruct (bytes_dec (e_key x) (e_key e')) as [K|K]; [right|left; exact K].
              pose proof (proj2 (first_in _ _ _ F0)) as K'. rewrite <- K', <- K in F0.
              pose proof (first_fun _ _ _ _ F F0) as <-. auto.
        -- rewrite flat_map_app. cbn [flat_map refused app]. fold (c_rejected c).
           apply picked_app; [eapply picked_ext; [|exact R]; intros y Hy; apply conflicts_app, Hy|].
           apply PK_yes; [|constructor]. exists e. split; [apply first_app; left; exact F|exact Ep].
        -- exact P.
    + assert (G : mget (e_key x) (c_entries c) = None).
      { destruct (mget (e_key x) (c_entries c)) as [m|] eqn:G; [|reflexivity]. apply E in G as (e & F' & _).
        apply first_in in F' as [F' K]. exfalso. exact (F _ F' K). }
      assert (Al : alike x l = []).
      { clear - F. induction l as [|y l IH]; [reflexivity|]. change (y :: l) with ([y] ++ l). rewrite alike_app, IH.
        - rewrite alike_one_no; [reflexivity|]. left. apply F. left; reflexivity.
        - intros z Hz. apply F. right; exact Hz. }
      assert (Alx : alike x (l ++ [x]) = [x]) by (rewrite alike_app, Al, alike_one_yes; reflexivity).
      assert (Wx : with_cmts x (concat (map e_cmts [x])) = x).
      { cbn [map concat]. rewrite app_nil_r. destruct x; reflexivity. }
      rewrite G. constructor; unfold c_rejected; cbn [c_entries c_err c_has_plural]; fold (c_rejected c).
      * apply nodup_put, N.
      * intros k m. rewrite mget_put. destruct (beq_spec k (e_key x)) as [->|Hk].
        -- split.
           ++ intros X. assert (m = x) by congruence. subst m. exists x. split; [apply first_app; right; split; [exact F|apply first_one; auto]|].
              rewrite Alx, Wx. reflexivity.
           ++ intros (e & F' & ->). apply first_app in F' as [F'|[_ F']].
              ** apply first_in in F' as [F' K]. exfalso. exact (F _ F' K).
              ** apply first_one in F' as [_ ->]. rewrite Alx, Wx. reflexivity.
        -- rewrite E. unfold merged. split; intros (e' & F' & ->); exists e'.
           ++ split; [apply first_app; left; exact F'|]. rewrite alike_app, alike_one_no; [rewrite app_nil_r; reflexivity|].
              left. apply first_in in F' as [_ ->]. auto.
           ++ apply first_app in F' as [F'|[_ F']].
              ** split; [exact F'|]. rewrite alike_app, alike_one_no; [rewrite app_nil_r; reflexivity|].
                 left. apply first_in in F' as [_ ->]. auto.
              ** apply first_one in F' as [K _]. congruence.
      * assert (R' : picked (conflicts (l ++ [x])) (l ++ [x]) (c_rejected c ++ [])); [|rewrite app_nil_r in R'; exact R'].
        apply picked_app; [eapply picked_ext; [|exact R]; intros y Hy; apply conflicts_app, Hy|].
        apply PK_no; [|constructor]. intros (e' & F' & P'). apply first_app in F' as [F'|[_ F']].
        -- apply first_in in F' as [F' K]. exact (F _ F' K).
        -- apply first_one in F' as [_ ->]. congruence.
      * rewrite Bool.orb_true_iff, P. split.
        -- intros [(k & m & Em & Pm)|Px].
           ++ exists k, m. split; [|exact Pm]. rewrite mget_put_other; [exact Em|]. intros ->. congruence.
           ++ exists (e_key x), x. split; [apply mget_put_same|exact Px].
        -- intros (k & m & Em & Pm). rewrite mget_put in Em. destruct (beq_spec k (e_key x)) as [->|Hk].
           ++ right. congruence.
           ++ left. eauto.
Qed.
Lemma merges_new kws : merges [] (new_ctx kws).
Proof.
  constructor; unfold c_rejected; cbn [new_ctx c_entries c_err c_has_plural keys map flat_map].
  - constructor.
  - intros k m. split; [discriminate|]. intros (e & (a & b & E & _) & _). destruct a; discriminate.
  - constructor.
  - split; [discriminate|]. intros (k & m & E & _). discriminate.
Qed.
Theorem add_merges kws l : merges l (fold_left ctx_add l (new_ctx kws)).
Proof.
  induction l as [|x l IH] using rev_ind; [apply merges_new|].
  rewrite fold_left_app. cbn [fold_left]. apply merges_step, IH.
Qed.
(** merging loses nothing *)
Lemma merged_key l k m : merged l k m -> e_key m = k.
Proof. intros (e & F & ->). apply first_in in F as [_ <-]. reflexivity. Qed.
Lemma merged_in l x : In x l -> exists m, merged l (e_key x) m.
Proof.
  intros I. destruct (first_dec l (e_key x)) as [(e & F)|F]; [|exfalso; exact (F x I eq_refl)].
  unfold merged. eauto.
Qed.
(** the comments of a merged message are those of messages *)
Lemma merged_cmts l k m x : merged l k m -> In x (e_cmts m) -> exists e, In e l /\ In x (e_cmts e) /\ e_key e = k.
Proof.
  intros (e & F & ->) I. cbn [with_cmts e_cmts] in I. apply in_concat in I as (cs & Ics & I).
  apply in_map_iff in Ics as (y & <- & Iy). apply filter_In in Iy as [Iy H]. exists y. split; [exact Iy|]. split; [exact I|].
  apply Bool.andb_true_iff in H as [H _]. apply beq_eq in H. rewrite H. apply first_in in F as [_ <-]. reflexivity.
Qed.

(** ** The file *)
Lemma key_nil c i : key c i = key [] [] <-> c = [] /\ i = [].
Proof.
  unfold key. cbn [app]. split.
  - destruct c as [|x c]; cbn [app].
    + intros E. split; [reflexivity|congruence].
    + intros E. assert (E' : c ++ EOT :: i = []) by congruence. destruct c; discriminate.
  - intros [-> ->]. reflexivity.
Qed.
Lemma fold_add_get l : forall f k m, NoDup (map e_key l) ->
  (mget k (f_entries (fold_left add_entry l f)) = Some m <->
   In m l /\ e_key m = k \/ (forall x, In x l -> e_key x <> k) /\ mget k (f_entries f) = Some m).
Proof.
  induction l as [|x l IH]; intros f k m N; cbn [fold_left].
  - split; [intros H; right; split; [intros x []|exact H]|]. intros [[[] _]|[_ H]]. exact H.
  - cbn [map] in N. apply NoDup_cons_iff in N as [N1 N2]. rewrite (IH _ _ _ N2), add_entry_entries, mget_put. split.
    + intros [[I K]|[H G]]; [left; split; [right; exact I|exact K]|].
      destruct (beq_spec k (e_key x)) as [->|Hk].
      * left. assert (m = x) by congruence. subst. split; [left; reflexivity|reflexivity].
      * right. split; [|exact G]. intros y [<-|Hy]; auto.
    + intros [[[<-|I] K]|[H G]].
      * right. split.
        -- intros y Hy Ky. apply N1. rewrite K, <- Ky. apply in_map, Hy.
        -- rewrite K, beq_refl. reflexivity.
      * left. auto.
      * right. split; [intros y Hy; apply H; right; exact Hy|]. destruct (beq_spec k (e_key x)) as [->|Hk]; [|exact G].
        exfalso. apply (H x); [left; reflexivity|reflexivity].
Qed.
Lemma fold_add_filed l : forall f, filed f -> filed (fold_left add_entry l f).
Proof.
  induction l as [|e l IH]; intros f F; cbn [fold_left]; [exact F|]. apply IH. destruct F as [N F].
  split; rewrite add_entry_entries; [apply nodup_put, N|].
  intros k x H. apply in_mput in H as [[= -> ->]|H]; [reflexivity|apply F, H].
Qed.
Theorem pot_entries now p l c f : merges l c -> makes_pot now p c f ->
  filed f /\ forall k m, mget k (f_entries f) = Some m <->
    merged l k m \/ (forall x, In x l -> e_key x <> key [] []) /\ k = key [] [] /\ m = header_entry now p (c_has_plural c).
Proof.
  intros [N E _ _] (es & P & ->). split.
  - apply fold_add_filed. apply built_filed. exists [header_entry now p (c_has_plural c)]. reflexivity.
  - assert (K : forall k m, In (k, m) (c_entries c) -> e_key m = k).
    { intros k m I. apply (in_mget _ _ _ N) in I. apply E in I. exact (merged_key _ _ _ I). }
    assert (V : forall m, In m es <-> mget (e_key m) (c_entries c) = Some m).
    { intros m. split.
      - intros I. apply (Permutation_in m P) in I. unfold vals in I. apply in_map_iff in I as ([k x] & X & I). cbn [snd] in X. subst x.
        rewrite (K _ _ I). apply in_mget; assumption.
      - intros I. apply (Permutation_in m (Permutation_sym P)). apply mget_in in I. unfold vals. apply in_map_iff. exists (e_key m, m). auto. }
    assert (ND : NoDup (map e_key es)).
    { eapply Permutation_NoDup; [apply Permutation_sym, Permutation_map, P|]. unfold vals. rewrite map_map.
      replace (map (fun x => e_key (snd x)) (c_entries c)) with (keys (c_entries c)); [exact N|].
      unfold keys. apply map_ext_in. intros [k m] I. cbn [fst snd]. symmetry. apply K, I. }
    intros k m. rewrite (fold_add_get es _ k m ND), add_entry_entries. cbn [new_file f_entries].
    change (e_key (header_entry now p (c_has_plural c))) with (key [] []).
    split.
    + intros [[I <-]|[H G]].
      * left. apply E, V, I.
      * right. rewrite mget_put in G. destruct (beq_spec k (key [] [])) as [->|Hk]; [|discriminate].
        split; [|split; [reflexivity|congruence]]. intros x Hx Kx. destruct (merged_in l x Hx) as (y & My).
        pose proof (merged_key _ _ _ My) as Ky. rewrite Kx in *. apply (H y); [|exact Ky]. apply V. rewrite Ky. apply E, My.
    + intros [H|(H & -> & ->)].
      * left. pose proof (merged_key _ _ _ H) as Km. split; [|exact Km]. apply V. rewrite Km. apply E, H.
      * right. split; [|apply mget_put_same]. intros x Hx Kx. apply V in Hx. rewrite Kx in Hx. apply E in Hx as (e & F & _).
        apply first_in in F as [I Ke]. exact (H e I Ke).
Qed.
