(** Facts about the walk over a file tree. *)
From Coq Require Import Sorted Permutation Lia.
From Verif Require Import GoStr GoStrFacts GoMap FileModel PoModel MoModel TransModel TransSpec TransLoadFacts FsModel FsSpec.

Section NodeInd.
Variable P : node -> Prop.
Hypothesis Pf : forall n d, P (NFile n d).
Hypothesis Pn : forall n, P (NDir n None).
Hypothesis Pd : forall n l, (forall t, In t l -> P t) -> P (NDir n (Some l)).
Fixpoint node_rec' (t : node) : P t :=
  match t with
  | NFile n d => Pf n d
  | NDir n None => Pn n
  | NDir n (Some l) =>
      Pd n l ((fix go (l : list node) : forall t, In t l -> P t :=
                 match l with
                 | [] => fun t H => match H with end
                 | x :: r => fun t H => match H with or_introl E => eq_ind x P (node_rec' x) t E | or_intror H' => go r t H' end
                 end) l)
  end.
End NodeInd.

(** the calls with the paths of the nodes they are about *)
Fixpoint visits (t : node) : list (path * event) :=
  match t with
  | NFile n d => [([n], EEntry false n (opened n d))]
  | NDir n None => [([n], EEntry true n None); ([n], EErr)]
  | NDir n (Some l) =>
      ([n], EEntry true n None)
      :: map (fun pe => (n :: fst pe, snd pe)) (concat (map snd (sort_names (map (fun x => (node_name x, visits x)) l))))
  end.

(** *** sorting *)
Lemma insert_map {X Y} (g : X -> Y) n x l :
  insert n (g x) (map (fun p => (fst p, g (snd p))) l) = map (fun p => (fst p, g (snd p))) (insert n x l).
Proof.
  induction l as [|[m y] l IH]; [reflexivity|]. cbn [map insert fst snd]. destruct (bltb m n); [|reflexivity].
  cbn [map fst snd]. rewrite IH. reflexivity.
Qed.
Lemma sort_map {X Y} (g : X -> Y) l :
  sort_names (map (fun p => (fst p, g (snd p))) l) = map (fun p => (fst p, g (snd p))) (sort_names l).
Proof.
  induction l as [|[n x] l IH]; [reflexivity|]. cbn [map sort_names fst snd]. rewrite IH. apply insert_map.
Qed.
Lemma insert_perm {X} n (x : X) l : Permutation (insert n x l) ((n, x) :: l).
Proof.
  induction l as [|[m y] l IH]; [apply Permutation_refl|]. cbn [insert]. destruct (bltb m n); [|apply Permutation_refl].
  etransitivity; [apply perm_skip, IH|apply perm_swap].
Qed.
Lemma sort_perm {X} (l : list (bytes * X)) : Permutation (sort_names l) l.
Proof.
  induction l as [|[n x] l IH]; [apply Permutation_refl|]. cbn [sort_names].
  etransitivity; [apply insert_perm|apply perm_skip, IH].
Qed.
Definition nlt {X} (p q : bytes * X) : Prop := bltb (fst p) (fst q) = true.
Lemma insert_sorted {X} n (x : X) l : ~ In n (map fst l) -> StronglySorted nlt l -> StronglySorted nlt (insert n x l).
Proof.
  induction l as [|[m y] l IH]; intros N Hs; cbn [insert].
  - constructor; [constructor|constructor].
  - inversion Hs as [|? ? S1 S2]; subst. destruct (bltb m n) eqn:E.
    + constructor.
      * apply IH; [intros I; apply N; right; exact I|exact S1].
      * apply Forall_forall. intros p I. apply (Permutation_in _ (insert_perm n x l)) in I as [<-|I]; [exact E|].
        rewrite Forall_forall in S2. apply S2, I.
    + assert (L : bltb n m = true).
      { destruct (bltb n m) eqn:E'; [reflexivity|]. exfalso. apply N. left. cbn [fst]. apply bltb_trichotomy; assumption. }
      constructor; [exact Hs|]. constructor; [exact L|].
      rewrite Forall_forall in *. intros p I. unfold nlt. cbn [fst]. eapply bltb_trans; [exact L|]. apply S2, I.
Qed.
Lemma sort_sorted {X} (l : list (bytes * X)) : NoDup (map fst l) -> StronglySorted nlt (sort_names l).
Proof.
  induction l as [|[n x] l IH]; intros N; cbn [sort_names]; [constructor|]. cbn [map fst] in N. inversion N as [|? ? N1 N2]; subst.
  apply insert_sorted; [|apply IH, N2]. intros I. apply N1. apply in_map_iff in I as (p & E & I). rewrite <- E. apply in_map.
  apply (Permutation_in _ (sort_perm l)), I.
Qed.

Lemma events_visits t : events t = map snd (visits t).
Proof.
  induction t as [n d|n|n l IH] using node_rec'; [reflexivity|reflexivity|].
  cbn [events visits map]. f_equal. rewrite map_map. cbn [snd].
  replace (map (fun x => (node_name x, events x)) l) with
    (map (fun p : bytes * list (path * event) => (fst p, map snd (snd p))) (map (fun x => (node_name x, visits x)) l)).
  2:{ rewrite map_map. apply map_ext_in. intros t I. cbn [fst snd]. rewrite (IH t I). reflexivity. }
  rewrite (sort_map (map snd)). rewrite concat_map, !map_map. reflexivity.
Qed.

(** *** membership *)
Lemma in_visits n l p e : In (p, e) (visits (NDir n (Some l))) <->
  (p = [n] /\ e = EEntry true n None) \/ exists t q, In t l /\ In (q, e) (visits t) /\ p = n :: q.
Proof.
  cbn [visits]. split.
  - intros [E|I]; [injection E as <- <-; left; auto|]. right. apply in_map_iff in I as ([q e'] & E & I). cbn [fst snd] in E.
    assert (e' = e) by congruence. assert (p = n :: q) by congruence. subst. clear E.
    apply in_concat in I as (vs & Iv & I). apply in_map_iff in Iv as ([m vs'] & E & Iv). cbn [snd] in E. subst vs'.
    apply (Permutation_in _ (sort_perm _)) in Iv. apply in_map_iff in Iv as (t & E & It).
    assert (visits t = vs) by congruence. subst vs. eauto 6.
  - intros [[-> ->]|(t & q & It & I & ->)]; [left; reflexivity|]. right. apply in_map_iff. exists (q, e). split; [reflexivity|].
    apply in_concat. exists (visits t). split; [|exact I]. apply in_map_iff. exists (node_name t, visits t). split; [reflexivity|].
    apply (Permutation_in _ (Permutation_sym (sort_perm _))). apply in_map_iff. eauto.
Qed.
Lemma visits_head t p e : In (p, e) (visits t) -> exists q, p = node_name t :: q.
Proof.
  destruct t as [n d|n [l|]]; cbn [node_name].
  - intros [E|[]]. injection E as <- _. eauto.
  - rewrite in_visits. intros [[-> _]|(t & q & _ & _ & ->)]; eauto.
  - intros [E|[E|[]]]; injection E as <- _; eauto.
Qed.
Lemma last_cons {X} (a : X) l d : l <> [] -> last (a :: l) d = last l d.
Proof. destruct l; [congruence|reflexivity]. Qed.
Lemma visits_nonnil t p e : In (p, e) (visits t) -> p <> [].
Proof. intros I. apply visits_head in I as [q ->]. discriminate. Qed.
Lemma at_nonnil t p c : at_path t p c -> p <> [].
Proof. destruct 1; discriminate. Qed.
Lemma visits_file t p c : at_path t p c <->
  exists nm, In (p, EEntry false nm (Some {| ff_name := Some nm; ff_content := Some c |})) (visits t) /\ last p [] = nm.
Proof.
  revert p. induction t as [n d|n|n l IH] using node_rec'; intros p.
  - split.
    + intros H. inversion H; subst. exists n. split; [left; reflexivity|reflexivity].
    + intros (nm & [E|[]] & L). destruct d as [| |c']; cbn [opened] in E; try discriminate.
      assert (c' = c) by congruence. assert (p = [n]) by congruence. subst. constructor.
  - split; [intros H; inversion H|]. intros (nm & [E|[E|[]]] & _); discriminate.
  - split.
    + intros H. inversion H as [|? ? t q ? It Ha]; subst. apply (IH t It) in Ha as (nm & I & L). exists nm. split.
      * apply in_visits. right. eauto.
      * rewrite last_cons; [exact L|]. eapply visits_nonnil, I.
    + intros (nm & I & L). apply in_visits in I as [[_ E]|(t & q & It & I & ->)]; [discriminate|].
      rewrite last_cons in L by (eapply visits_nonnil, I). econstructor; [exact It|]. apply (IH t It). eauto.
Qed.
Lemma visits_name t p nm o : In (p, EEntry false nm o) (visits t) -> exists q, p = q ++ [nm].
Proof.
  revert p. induction t as [n d|n|n l IH] using node_rec'; intros p.
  - intros [E|[]]. assert (p = [n]) by congruence. assert (n = nm) by congruence. subst. exists []. reflexivity.
  - intros [E|[E|[]]]; discriminate.
  - rewrite in_visits. intros [[_ E]|(t & q & It & I & ->)]; [discriminate|]. apply (IH t It) in I as [q' ->]. exists (n :: q'). reflexivity.
Qed.
Lemma visits_err t p : locked t p <-> In (p, EErr) (visits t).
Proof.
  revert p. induction t as [n d|n|n l IH] using node_rec'; intros p.
  - split; [intros H; inversion H|intros [E|[]]; discriminate].
  - split; [intros H; inversion H; subst; right; left; reflexivity|].
    intros [E|[E|[]]]; [discriminate|]. injection E as <-. constructor.
  - rewrite in_visits. split.
    + intros H. inversion H as [|? ? t q It Hl]; subst. right. exists t, q. split; [exact It|]. split; [apply (IH t It), Hl|reflexivity].
    + intros [[_ E]|(t & q & It & I & ->)]; [discriminate|]. econstructor; [exact It|]. apply (IH t It), I.
Qed.
Lemma visits_opened t p nm o : In (p, EEntry false nm o) (visits t) -> exists d, o = opened nm d.
Proof.
  revert p. induction t as [n d|n|n l IH] using node_rec'; intros p.
  - intros [E|[]]. injection E as _ <- <-. eauto.
  - intros [E|[E|[]]]; discriminate.
  - rewrite in_visits. intros [[_ E]|(t & q & It & I & ->)]; [discriminate|]. exact (IH t It q I).
Qed.
Lemma visits_dir t p nm o : In (p, EEntry true nm o) (visits t) -> o = None.
Proof.
  revert p. induction t as [n d|n|n l IH] using node_rec'; intros p.
  - intros [E|[]]. discriminate.
  - intros [E|[E|[]]]; [congruence|discriminate].
  - rewrite in_visits. intros [[_ E]|(t & q & It & I & ->)]; [congruence|]. exact (IH t It q I).
Qed.
Lemma events_honest t : honest (events t).
Proof.
  intros dir name x I. rewrite events_visits in I. apply in_map_iff in I as ([p e] & E & I). cbn [snd] in E. subst e.
  destruct dir; [apply visits_dir in I; discriminate|]. apply visits_opened in I as [[| |c] E]; cbn [opened] in E; [discriminate| |];
  injection E as ->; reflexivity.
Qed.

(** *** order *)
Lemma before_irrefl p : ~ path_before p p.
Proof. induction p as [|x p IH]; [intros []|]. cbn [path_before]. rewrite bltb_irrefl. intros [H|[_ H]]; [discriminate|exact (IH H)]. Qed.
Lemma before_trans p q r : path_before p q -> path_before q r -> path_before p r.
Proof.
  revert q r. induction p as [|x p IH]; intros [|y q] [|z r]; cbn [path_before]; try tauto.
  intros [H1|[-> H1]] [H2|[<- H2]]; eauto using bltb_trans.
Qed.
Definition vle (x y : path * event) : Prop := path_before (fst x) (fst y) \/ fst x = fst y /\ snd y = EErr.
Lemma sorted_app {X} (R : X -> X -> Prop) a b : StronglySorted R a -> StronglySorted R b ->
  (forall x y, In x a -> In y b -> R x y) -> StronglySorted R (a ++ b).
Proof.
  intros Ha Hb H. induction Ha as [|x a Ha IH Hx]; [exact Hb|]. cbn [app]. constructor.
  - apply IH. intros u v Iu Iv. apply H; [right; exact Iu|exact Iv].
  - rewrite Forall_forall in *. intros y I. apply in_app_or in I as [I|I]; [apply Hx, I|apply H; [left; reflexivity|exact I]].
Qed.
Lemma sorted_map {X Y} (R : X -> X -> Prop) (R' : Y -> Y -> Prop) (g : X -> Y) l :
  (forall x y, R x y -> R' (g x) (g y)) -> StronglySorted R l -> StronglySorted R' (map g l).
Proof.
  intros H. induction 1 as [|x l Hl IH Hx]; cbn [map]; constructor; [exact IH|].
  rewrite Forall_forall in *. intros y I. apply in_map_iff in I as (z & <- & I). apply H, Hx, I.
Qed.
Lemma visits_sorted t : distinct t -> StronglySorted vle (visits t).
Proof.
  induction t as [n d|n|n l IH] using node_rec'; intros D.
  - cbn [visits]. repeat constructor.
  - cbn [visits]. constructor; [repeat constructor|]. constructor; [right; auto|constructor].
  - inversion D as [| |? ? ND Dl]; subst. cbn [visits]. constructor.
    + apply (sorted_map vle).
      { intros [p e] [q e'] [H|[H1 H2]]; cbn [fst snd] in *; [left; right; auto|right; cbn [fst snd]; split; [congruence|exact H2]]. }
      assert (Hs : StronglySorted nlt (sort_names (map (fun x => (node_name x, visits x)) l))).
      { apply sort_sorted. rewrite map_map. exact ND. }
      assert (Hv : forall m vs, In (m, vs) (sort_names (map (fun x => (node_name x, visits x)) l)) ->
                StronglySorted vle vs /\ forall p e, In (p, e) vs -> exists q, p = m :: q).
      { intros m vs I. apply (Permutation_in _ (sort_perm _)) in I. apply in_map_iff in I as (t & E & It).
        assert (m = node_name t) by congruence. assert (vs = visits t) by congruence. subst.
        split; [apply IH; [exact It|apply Dl, It]|apply visits_head]. }
      revert Hs Hv. generalize (sort_names (map (fun x => (node_name x, visits x)) l)). clear.
      intros ls Hs Hv. induction Hs as [|[m vs] ls Hl IH Hx]; cbn [map concat snd]; [constructor|].
      apply sorted_app.
      * apply (Hv m vs). left. reflexivity.
      * apply IH. intros m' vs' I. apply Hv. right. exact I.
      * intros [p e] [q e'] I I'. apply in_concat in I' as (vs' & I1 & I2). apply in_map_iff in I1 as ([m' vs''] & E & I1). cbn [snd] in E. subst vs''.
        destruct (proj2 (Hv m vs (or_introl eq_refl)) p e I) as [p' ->].
        destruct (proj2 (Hv m' vs' (or_intror I1)) q e' I2) as [q' ->].
        left. left. rewrite Forall_forall in Hx. exact (Hx _ I1).
    + apply Forall_forall. intros [q e] I. apply in_map_iff in I as ([q' e'] & E & I). cbn [fst snd] in E.
      assert (q = n :: q') by congruence. subst q. left. cbn [fst path_before]. right. split; [reflexivity|].
      apply in_concat in I as (vs & I1 & I2). apply in_map_iff in I1 as ([m vs'] & E1 & I1). cbn [snd] in E1. subst vs'.
      apply (Permutation_in _ (sort_perm _)) in I1. apply in_map_iff in I1 as (t & E1 & It).
      assert (vs = visits t) by congruence. subst vs. apply visits_head in I2 as [q'' ->]. exact I.
Qed.
Lemma in_by_name (l : list node) t t' : NoDup (map node_name l) -> In t l -> In t' l -> node_name t = node_name t' -> t = t'.
Proof.
  induction l as [|x l IH]; intros N; [intros []|]. cbn [map] in N. inversion N as [|? ? N1 N2]; subst.
  intros [->|I] [->|I'] E; [reflexivity| | |apply IH; assumption]; exfalso; apply N1; [rewrite E|rewrite <- E]; apply in_map; assumption.
Qed.
Lemma at_name t p c : at_path t p c -> exists q, p = node_name t :: q.
Proof. destruct 1; cbn [node_name]; eauto. Qed.
Lemma locked_name t p : locked t p -> exists q, p = node_name t :: q.
Proof. destruct 1; cbn [node_name]; eauto. Qed.
Lemma file_not_locked t p c : distinct t -> at_path t p c -> ~ locked t p.
Proof.
  revert p. induction t as [n d|n|n l IH] using node_rec'; intros p D Ha Hl; inversion Ha as [|? ? t q ? It Ht]; subst; inversion Hl as [|? ? t' q' It' Hl']; subst.
  inversion D as [| |? ? ND Dl]; subst.
  destruct (at_name _ _ _ Ht) as [r Er]. destruct (locked_name _ _ Hl') as [r' Er'].
  assert (t = t') by (apply (in_by_name l); auto; congruence). subst t'. exact (IH t It q (Dl t It) Ht Hl').
Qed.

(** *** the files before the first error *)
Fixpoint seen (l : list (path * event)) : list (path * bytes) :=
  match l with
  | (p, EEntry false nm (Some {| ff_content := Some c |})) :: r => (p, c) :: seen r
  | (_, EEntry _ _ _) :: r => seen r
  | (_, EErr) :: _ | [] => []
  end.
Lemma seen_cases p dir nm o r : seen ((p, EEntry dir nm o) :: r) = seen r \/
  exists n' c, dir = false /\ o = Some {| ff_name := n'; ff_content := Some c |} /\ seen ((p, EEntry dir nm o) :: r) = (p, c) :: seen r.
Proof. destruct dir; [left; reflexivity|]. destruct o as [[n' [c|]]|]; [right; eauto 6|left; reflexivity|left; reflexivity]. Qed.
Lemma seen_in l p c : In (p, c) (seen l) -> exists nm n', In (p, EEntry false nm (Some {| ff_name := n'; ff_content := Some c |})) l.
Proof.
  induction l as [|[q [|dir nm o]] l IH]; [intros []|intros []|].
  destruct (seen_cases q dir nm o l) as [->|(n' & c' & -> & -> & ->)].
  - intros I. destruct (IH I) as (nm' & n' & I'). exists nm', n'. right. exact I'.
  - intros [E|I]; [injection E as <- <-; exists nm, n'; left; reflexivity|]. destruct (IH I) as (nm' & n'' & I'). exists nm', n''. right. exact I'.
Qed.
Lemma seen_sorted l : StronglySorted vle l -> StronglySorted (fun x y => path_before (fst x) (fst y)) (seen l).
Proof.
  induction 1 as [|[q [|dir nm o]] l Hl IH Hx]; [constructor|constructor|].
  destruct (seen_cases q dir nm o l) as [->|(n' & c' & -> & -> & ->)]; [exact IH|]. constructor; [exact IH|].
  rewrite Forall_forall in *. intros [p c] I. cbn [fst]. apply seen_in in I as (nm' & n'' & I). specialize (Hx _ I). destruct Hx as [Hx|[_ Hx]]; [exact Hx|discriminate].
Qed.
Lemma seen_before l p c q : StronglySorted vle l -> In (p, c) (seen l) -> In (q, EErr) l -> path_before p q \/ p = q.
Proof.
  induction 1 as [|[r [|dir nm o]] l Hl IH Hx]; [intros []|intros []|].
  intros I [E|I']; [discriminate|].
  destruct (seen_cases r dir nm o l) as [E|(n' & c' & -> & -> & E)]; rewrite E in I.
  - apply IH; assumption.
  - destruct I as [Er|I]; [|apply IH; assumption]. assert (r = p) by congruence. subst r.
    rewrite Forall_forall in Hx. destruct (Hx _ I') as [V|[V _]]; cbn [fst] in V; auto.
Qed.
Lemma seen_all l p nm n' c : StronglySorted vle l -> In (p, EEntry false nm (Some {| ff_name := n'; ff_content := Some c |})) l ->
  (forall q, In (q, EErr) l -> path_before p q) -> In (p, c) (seen l).
Proof.
  induction 1 as [|[r [|dir nm' o]] l Hl IH Hx]; [intros []| |].
  - intros [E|I] H; [discriminate|]. exfalso. rewrite Forall_forall in Hx. specialize (Hx _ I).
    specialize (H r (or_introl eq_refl)). destruct Hx as [Hx|[Hx Hy]]; cbn [fst snd] in *; [|discriminate].
    exact (before_irrefl _ (before_trans _ _ _ H Hx)).
  - intros [E|I] H.
    + injection E as -> -> -> ->. left. reflexivity.
    + assert (Q : In (p, c) (seen l)) by (apply IH; [exact I|intros q Iq; apply H; right; exact Iq]).
      destruct (seen_cases r dir nm' o l) as [->|(n'' & c' & -> & -> & ->)]; [exact Q|right; exact Q].
Qed.
Lemma seen_visible t p c : distinct t -> In (p, c) (seen (visits t)) <-> visible t p c.
Proof.
  intros D. pose proof (visits_sorted t D) as Hs. split.
  - intros I. pose proof I as I0. apply seen_in in I as (nm & n' & I).
    assert (Ha : at_path t p c).
    { destruct (visits_opened _ _ _ _ I) as [[| |c'] E]; cbn [opened] in E; try discriminate. injection E as -> <-.
      apply visits_file. exists nm. split; [exact I|]. destruct (visits_name _ _ _ _ I) as [q ->]. apply last_last. }
    split; [exact Ha|]. intros q Hq. apply visits_err in Hq as Hq'.
    destruct (seen_before _ _ _ _ Hs I0 Hq') as [V| ->]; [exact V|]. exfalso. exact (file_not_locked t q c D Ha Hq).
  - intros [Ha H]. apply visits_file in Ha as (nm & I & _). apply (seen_all _ _ _ _ _ Hs I). intros q Iq. apply H, visits_err, Iq.
Qed.

(** *** the catalogs *)
Lemma named_iff ext q n : named ext (q ++ [n]) <-> has_suffix ext n = true.
Proof.
  rewrite has_suffix_iff. unfold named. split.
  - intros (q' & x & E). apply app_inj_tail in E as [_ ->]. eauto.
  - intros (x & ->). eauto.
Qed.
Definition ends (ext : bytes) (p : path) : bool := has_suffix ext (last p []).
Lemma ends_named ext p : p <> [] -> (ends ext p = true <-> named ext p).
Proof.
  intros N. unfold ends. rewrite <- (named_iff ext (removelast p)). rewrite <- app_removelast_last by exact N. tauto.
Qed.
Definition cats (ext : bytes) (rd : bytes -> option file) (l : list (path * bytes)) : list file :=
  flat_map (fun pc => if ends ext (fst pc) then match rd (snd pc) with Some f => [f] | None => [] end else []) l.
Lemma readable_seen ext rd l : (forall p nm o, In (p, EEntry false nm o) l -> exists q, p = q ++ [nm]) ->
  readable ext rd (map snd l) = cats ext rd (seen l).
Proof.
  induction l as [|[p [|dir nm o]] l IH]; intros H; [reflexivity|reflexivity|]. cbn [map snd].
  assert (IH' : readable ext rd (map snd l) = cats ext rd (seen l)) by (apply IH; intros q n' o' I; apply (H q n' o'); right; exact I).
  cbn [readable seen]. destruct dir; [destruct o; exact IH'|]. destruct o as [[n' [c|]]|]; [|exact IH'|exact IH'].
  cbn [cats flat_map fst snd]. destruct (H p nm _ (or_introl eq_refl)) as [q ->]. unfold ends at 1. rewrite last_last.
  destruct (has_suffix ext nm); [|exact IH']. destruct (rd c) as [f|]; cbn [app]; [f_equal|]; exact IH'.
Qed.
Lemma readable_tree ext rd t : readable ext rd (events t) = cats ext rd (seen (visits t)).
Proof. rewrite events_visits. apply readable_seen. intros p nm o I. exact (visits_name t p nm o I). Qed.
Lemma in_cats ext rd l f : In f (cats ext rd l) <-> exists p c, In (p, c) l /\ ends ext p = true /\ rd c = Some f.
Proof.
  unfold cats. rewrite in_flat_map. split.
  - intros ([p c] & I & If). cbn [fst snd] in If. destruct (ends ext p) eqn:E; [|destruct If].
    destruct (rd c) as [g|] eqn:R; [|destruct If]. destruct If as [->|[]]. eauto 6.
  - intros (p & c & I & E & R). exists (p, c). split; [exact I|]. cbn [fst snd]. rewrite E, R. left. reflexivity.
Qed.
(** content that some reader turns into a catalog with a property *)
Definition readable_as (rd : bytes -> option file) (Q : file -> Prop) (c : bytes) : Prop := exists f, rd c = Some f /\ Q f.
Lemma latest_last t ext rd Q c f : distinct t -> latest t ext (readable_as rd Q) c -> rd c = Some f ->
  last_of Q (readable ext rd (events t)) f.
Proof.
  intros D (p & V & Np & (f' & R & Qf) & H) R'. assert (f' = f) by congruence. subst f'. clear R'.
  rewrite readable_tree. pose proof (seen_sorted _ (visits_sorted t D)) as Hs.
  apply (seen_visible t p c D) in V as I.
  assert (H' : forall q c', In (q, c') (seen (visits t)) -> ends ext q = true -> readable_as rd Q c' -> q = p \/ path_before q p).
  { intros q c' Iq E' Rq. apply (H q c'); [apply seen_visible; assumption| |exact Rq].
    apply ends_named; [|exact E']. apply seen_in in Iq as (nm & n' & Iq). eapply visits_nonnil, Iq. }
  apply ends_named in Np; [|eapply at_nonnil, V]. clear V H.
  revert I Hs H'. generalize (seen (visits t)). intros l I Hs H'.
  apply in_split in I as (a & b & ->). unfold cats. rewrite flat_map_app. cbn [flat_map fst snd]. rewrite Np, R.
  exists (cats ext rd a), (cats ext rd b). split; [reflexivity|]. split; [exact Qf|]. intros g Ig Qg.
  apply in_cats in Ig as (q & c' & Iq & E' & R').
  assert (B : path_before p q).
  { clear - Hs Iq. induction a as [|z a IH]; cbn [app] in Hs; inversion Hs as [|? ? S1 S2]; subst.
    - rewrite Forall_forall in S2. exact (S2 _ Iq).
    - apply IH, S1. }
  destruct (H' q c') as [->|B']; [apply in_or_app; right; right; exact Iq|exact E'|exists g; auto| |].
  - exact (before_irrefl _ B).
  - exact (before_irrefl _ (before_trans _ _ _ B B')).
Qed.
Lemma nowhere_none t ext rd Q : distinct t -> nowhere t ext (readable_as rd Q) <-> forall f, In f (readable ext rd (events t)) -> ~ Q f.
Proof.
  intros D. rewrite readable_tree. split.
  - intros H f I Qf. apply in_cats in I as (p & c & I & E & R). apply seen_visible in I; [|exact D].
    apply (H p c I); [apply ends_named; [eapply at_nonnil, I|exact E]|exists f; auto].
  - intros H p c V N (f & R & Qf). apply (H f); [|exact Qf]. apply in_cats. exists p, c.
    split; [apply seen_visible; assumption|]. split; [|exact R]. apply ends_named; [eapply at_nonnil, V|exact N].
Qed.
Lemma hits_name ext w x : honest w -> In x (hits ext w) -> exists n, ff_name x = Some n /\ has_suffix ext n = true.
Proof.
  induction w as [|[|dir nm [y|]] w IH]; intros H; [intros []|intros []| |].
  - cbn [hits]. destruct dir; [apply IH, (honest_tail _ _ H)|]. destruct (has_suffix ext nm) eqn:E; [|apply IH, (honest_tail _ _ H)].
    intros [->|I]; [|apply IH; [apply (honest_tail _ _ H)|exact I]]. exists nm. split; [|exact E]. exact (H _ _ _ (or_introl eq_refl)).
  - cbn [hits]. destruct dir; apply IH, (honest_tail _ _ H).
Qed.
Lemma loaded_catalogs ext w : (forall x, In x (hits ext w) -> gives x <> Some None) -> some_loaded ext w <-> exists f, In f (catalogs ext w).
Proof.
  intros H. unfold some_loaded, catalogs. split.
  - intros (x & I & G). specialize (H x I). destruct (gives x) as [[f|]|] eqn:E; try congruence. exists f. apply in_flat_map. exists x. split; [exact I|].
    rewrite E. left. reflexivity.
  - intros (f & I). apply in_flat_map in I as (x & I & G). exists x. split; [exact I|]. destruct (gives x); [discriminate|destruct G].
Qed.
Lemma some_readable ext rd t : distinct t -> (exists f, In f (readable ext rd (events t))) <-> somewhere t ext (fun c => rd c <> None).
Proof.
  intros D. rewrite readable_tree. split.
  - intros (f & I). apply in_cats in I as (p & c & I & E & R). apply seen_visible in I; [|exact D]. exists p, c. split; [exact I|].
    split; [apply ends_named; [eapply at_nonnil, I|exact E]|congruence].
  - intros (p & c & V & N & R). destruct (rd c) as [f|] eqn:E; [|congruence]. exists f. apply in_cats. exists p, c.
    split; [apply seen_visible; assumption|]. split; [|exact E]. apply ends_named; [eapply at_nonnil, V|exact N].
Qed.
Lemma loaded_po t : distinct t -> some_loaded (B ".po") (events t) <-> somewhere t (B ".po") (fun c => as_po c <> None).
Proof.
  intros D. rewrite <- some_readable by exact D. rewrite <- catalogs_po by apply events_honest. apply loaded_catalogs.
  intros x I. destruct (hits_name _ _ _ (events_honest t) I) as (n & E & Hs). unfold gives. rewrite E, Hs.
  destruct (ff_content x) as [c|]; [|discriminate]. destruct (read_po c); discriminate.
Qed.
Lemma loaded_mo t : distinct t -> some_loaded (B ".mo") (events t) <-> somewhere t (B ".mo") (fun c => as_mo c <> None).
Proof.
  intros D. rewrite <- some_readable by exact D. rewrite <- catalogs_mo by apply events_honest. apply loaded_catalogs.
  intros x I. destruct (hits_name _ _ _ (events_honest t) I) as (n & E & Hs). unfold gives. rewrite E, (mo_not_po n Hs), Hs.
  destruct (ff_content x) as [c|]; [|discriminate]. destruct (read_mo c); discriminate.
Qed.
