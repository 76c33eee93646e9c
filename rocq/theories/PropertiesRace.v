(** C105: which calls on one handle may run at the same time. *)
From Coq Require Import Lia Arith List.
From Verif Require Import GoStr GoStrFacts GoMap GoMapFacts FileModel TransModel TransSpec TransFacts TransLoadFacts ConcModel HandleConcModel HandleConcSpec
  HandleRaceSpec HandleRaceFacts HandleClashFacts HandleAnswerRunFacts HandleRunFacts HandleTurnFacts PropertiesTrans PropertiesConc PropertiesHandleConc.
Import ListNotations.
Local Open Scope nat_scope.

(** goroutines, each making any calls on one and the same handle: if no call of one
    of them changes a part of the handle that a call of another one looks at or
    changes, no two of them ever race, however they interleave *)
Theorem C105_safe : forall A (fmt : bytes -> list A -> bytes) norm s h qss s' ps,
  reach_built fmt norm s -> h < length (s_ts s) ->
  (forall qs q, In qs qss -> In q qs -> on s h q) ->
  (forall i j qs qs' q q', i <> j -> nth_error qss i = Some qs -> nth_error qss j = Some qs' -> In q qs -> In q' qs' -> ~ clash q q') ->
  gsteps norm (s, map (run_request fmt norm [] []) qss) (s', ps) -> ~ handle_race ps.
Proof.
  intros A fmt norm s h qss s' ps R L Ho Nc St.
  set (uss := fun j p => exists qs q, nth_error qss j = Some qs /\ In q qs /\ uses q p).
  set (css := fun j p => exists qs q, nth_error qss j = Some qs /\ In q qs /\ changes q p).
  destruct (inv_steps fmt norm h (s_global s) (length (s_ts s)) uss css _ _ St) as [Of I].
  - exists (fun _ => []). cbn [fst snd]. split; [apply (reach_built_calm _ _ _ _ R)|]. split; [reflexivity|]. split; [lia|].
    split; [split; intros; contradiction|]. intros j p E. rewrite nth_error_map in E. destruct (nth_error qss j) as [qs|] eqn:Ej; [|discriminate]. injection E as <-.
    apply (safe_request fmt norm h (s_global s) (uss j) (css j) s eq_refl). apply Forall_forall. intros q Hq.
    split; [apply (Ho qs q); [eapply nth_error_In; eassumption|exact Hq]|]. split; intros p Hp; exists qs, q; auto.
  - cbn [fst snd] in I. apply (inv_no_race h (s_global s) _ _ _ _ _ _ L I). intros i j p N (qs & q & E & Hq & C) D.
    destruct D as [(qs' & q' & E' & Hq' & D)|(qs' & q' & E' & Hq' & D)]; apply (Nc i j qs qs' q q' N E E' Hq Hq'); exists p; left; auto.
Qed.
Print Assumptions C105_safe.
Lemma start_knows A (fmt : bytes -> list A -> bytes) norm s h : reach_built fmt norm s -> h < length (s_ts s) ->
  base h (s_global s) s /\ knows_of h s (abs_langs s tr_noop) (view_of h s).
Proof.
  intros R L. pose proof (reach_built_calm _ _ _ _ R) as Cm. pose proof (reach_built_wf _ _ _ _ R) as Wf.
  split; [split; [reflexivity|exact L|apply (w_maps s Wf), L]|exact (knows_start h s Cm Wf)].
Qed.
Lemma one_no_clash A (qs : list (@rcall A)) : no_clash [qs].
Proof. intros i i' qs1 qs2 q q' N E1 E2. exfalso. destruct i as [|[|i]]; try discriminate; destruct i' as [|[|i']]; try discriminate. congruence. Qed.
(** and each goroutine gets the answers it gets when it runs by itself *)
Theorem C105_answers : forall A (fmt : bytes -> list A -> bytes) norm s h qss s' ps,
  reach_built fmt norm s -> h < length (s_ts s) ->
  (forall qs q, In qs qss -> In q qs -> on s h q) ->
  (forall i j qs qs' q q', i <> j -> nth_error qss i = Some qs -> nth_error qss j = Some qs' -> In q qs -> In q' qs' -> ~ clash q q') ->
  gsteps norm (s, map (run_request fmt norm [] []) qss) (s', ps) ->
  forall j qs rs, nth_error qss j = Some qs -> nth_error ps j = Some (GRet rs) -> rs = by_itself fmt norm s [] qs.
Proof.
  intros A fmt norm s h qss s' ps R L Ho Nc St j qs rs Eq Er.
  destruct (start_knows A fmt norm s h R L) as [Bs Kn].
  rewrite (ans_gen fmt norm h (s_global s) s qss s' ps _ _ Bs Kn Ho Nc St j qs rs Eq Er).
  destruct (C80_alone A fmt norm s [] qs R) as [s2 St2]. symmetry.
  apply (ans_gen fmt norm h (s_global s) s [qs] s2 [GRet (by_itself fmt norm s [] qs)] _ _ Bs Kn) with (j := 0); try reflexivity; [|apply one_no_clash|exact St2].
  intros qs1 q [<-|[]]. apply Ho. eapply nth_error_In, Eq.
Qed.
Print Assumptions C105_answers.
(** and if one of two calls changes, in this state, what the other looks at or
    changes, there is a way to interleave them in which they race *)
Theorem C105_unsafe : forall A (fmt : bytes -> list A -> bytes) norm s h q q',
  on s h q -> on s h q' -> clash_in s h q q' ->
  exists s' ps, gsteps norm (s, map (run_request fmt norm [] []) [[q]; [q']]) (s', ps) /\ handle_race ps.
Proof. intros A fmt norm s h q q' O1 O2 C. exact (clash_races fmt norm h s q q' O1 O2 C). Qed.
Print Assumptions C105_unsafe.
(** ** Exactly the calls that clash can race *)
Lemma loads_dec wm wp : loads wm wp \/ ~ loads wm wp.
Proof.
  destruct (existsb okb (hits (B ".mo") wm ++ hits (B ".po") wp)) eqn:E; [left; apply some_loaded_iff, E|right].
  intros L. apply some_loaded_iff in L. congruence.
Qed.
Lemma part_dec (p p' : part) : p = p' \/ p <> p'.
Proof. destruct p, p'; auto; right; discriminate. Qed.
Lemma changes_dec A (q : @rcall A) p : changes q p \/ ~ changes q p.
Proof.
  destruct q; cbn [changes]; auto; try apply part_dec.
  - destruct (part_dec p Loaded), (loads_dec wm wp); tauto.
  - destruct (part_dec p Loaded), (part_dec p Current), domain; try tauto; try (left; split; [tauto|discriminate]).
  - destruct (part_dec p Loaded), (part_dec p Current); tauto.
Qed.
Lemma uses_dec A (q : @rcall A) p : uses q p \/ ~ uses q p.
Proof.
  destruct q; cbn [uses]; auto; try apply part_dec.
  - destruct (part_dec p Loaded), (loads_dec wm wp); tauto.
  - destruct (part_dec p Loaded), (part_dec p Current), domain; try tauto; try (left; split; [tauto|discriminate]).
  - destruct (part_dec p Language); tauto.
  - destruct cookie; [auto|]. destruct (part_dec p Language); tauto.
  - destruct (part_dec p Source); tauto.
  - destruct (part_dec p Source); tauto.
Qed.
Lemma clash_dec A (q q' : @rcall A) : clash q q' \/ ~ clash q q'.
Proof.
  assert (D : forall p, (changes q p /\ (changes q' p \/ uses q' p) \/ changes q' p /\ (changes q p \/ uses q p))
                        \/ ~ (changes q p /\ (changes q' p \/ uses q' p) \/ changes q' p /\ (changes q p \/ uses q p))).
  { intros p. destruct (changes_dec A q p), (changes_dec A q' p), (uses_dec A q p), (uses_dec A q' p); tauto. }
  destruct (D Language) as [H|H1]; [left; eexists; exact H|]. destruct (D Current) as [H|H2]; [left; eexists; exact H|].
  destruct (D Loaded) as [H|H3]; [left; eexists; exact H|]. destruct (D Source) as [H|H4]; [left; eexists; exact H|].
  right. intros (p & H). destruct p; contradiction.
Qed.
Section Exact.
Variable A : Type.
Variable fmt : bytes -> list A -> bytes.
Variable norm : bytes -> bytes.
Variable h : nat.
Notation at_h s := (reach_built fmt norm s /\ h < length (s_ts s)).
Lemma loads_ex : loads [] ex_walk.
Proof. right. apply C38_case. Qed.
Lemma set_up s d : at_h s -> exists s', at_h s' /\ s_global s' = s_global s /\ has_domain s' h d = true /\ h_domain s' h = d.
Proof.
  intros [R L]. pose proof (reach_built_wf _ _ _ _ R) as W.
  assert (L1 : length (s_ts (bind_fs norm s h d [] ex_walk)) = length (s_ts s)) by (rewrite bind_fs_spec; cbv zeta; destruct (existsb okb _); reflexivity).
  exists (set_domain (bind_fs norm s h d [] ex_walk) h d). split; [split|].
  - apply (RB_step fmt norm (bind_fs norm s h d [] ex_walk) (OSetDomain h d)); [|cbn [known]; rewrite L1; exact L|discriminate].
    apply (RB_step fmt norm s (OBind h d [] ex_walk)); [exact R|exact L|discriminate].
  - unfold set_domain, set_ts. cbn [s_ts]. rewrite upd_length, L1. exact L.
  - split; [change (s_global (bind_fs norm s h d [] ex_walk) = s_global s); rewrite bind_fs_spec; cbv zeta; destruct (existsb okb _); reflexivity|].
    assert (E : the_ts (set_domain (bind_fs norm s h d [] ex_walk) h d) h
                = {| t_locale := t_locale (the_ts (bind_fs norm s h d [] ex_walk) h); t_domain := d; t_map := t_map (the_ts (bind_fs norm s h d [] ex_walk) h);
                     t_source := t_source (the_ts (bind_fs norm s h d [] ex_walk) h) |}).
    { unfold set_domain, set_ts, the_ts. cbn [s_ts]. rewrite nth_upd_same by (rewrite L1; exact L). reflexivity. }
    split; [|unfold h_domain; rewrite E; reflexivity]. apply has_domain_get. unfold h_get, h_domains. rewrite E. cbn [t_map].
    change (mget d (h_domains (bind_fs norm s h d [] ex_walk) h) <> None).
    rewrite (bind_domains norm s h d [] ex_walk W L loads_ex), mget_put_same. discriminate.
Qed.
Lemma set_clear s : at_h s -> exists s', at_h s' /\ s_global s' = s_global s /\ forall d, h_get s' h d = None.
Proof.
  intros [R L]. exists (clear_domains s h). split; [split|].
  - apply (RB_step fmt norm s (OClear h)); [exact R|exact L|discriminate].
  - unfold clear_domains, new_map, set_ts. cbn [s_ts]. rewrite upd_length. exact L.
  - split; [reflexivity|]. intros d. unfold h_get, h_domains, clear_domains, new_map, set_ts, the_map, the_ts. cbn [s_ts s_maps].
    rewrite nth_upd_same by exact L. cbn [t_map]. rewrite nth_new. reflexivity.
Qed.
Lemma clash_somewhere s q q' p : at_h s -> on s h q -> on s h q' -> changes q p -> changes q' p \/ uses q' p ->
  exists s', at_h s' /\ s_global s' = s_global s /\ clash_in s' h q q'.
Proof.
  intros Hs O1 O2 C1 C2.
  assert (Dr : (exists r d, q = QRemove r d) \/ match q with QRemove _ _ => False | _ => True end) by (destruct q; eauto).
  assert (Dr' : (exists r d, q' = QRemove r d) \/ match q' with QRemove _ _ => False | _ => True end) by (destruct q'; eauto).
  destruct Dr as [(r & d & ->)|Nr].
  { destruct (set_up s d Hs) as (s1 & H1 & G1 & D1 & D2). exists s1. split; [exact H1|]. split; [exact G1|].
    assert (Cq : forall p, changes (QRemove r d : @rcall A) p -> changes_in s1 h (QRemove r d) p) by (intros p0 H; split; [exact H|split; [exact D1|intros _; exact D2]]).
    destruct Dr' as [(r' & d' & ->)|Nr'].
    - exists Loaded. left. split; [apply Cq; split; [left; reflexivity|apply C1]|]. right. split; [|discriminate].
      split; [left; reflexivity|]. destruct C2 as [C2|C2]; apply C2.
    - exists p. left. split; [apply Cq, C1|]. destruct C2 as [C2|C2]; [left; split; [exact C2|destruct q'; try exact I; contradiction]|right].
      split; [exact C2|]. destruct q'; try exact I; try contradiction. cbn [changes] in C1. destruct C1 as [[-> | ->] _]; exact I. }
  assert (Cq : forall s1 p, changes q p -> changes_in s1 h q p) by (intros s1 p0 H; split; [exact H|destruct q; try exact I; contradiction]).
  destruct Dr' as [(r' & d' & ->)|Nr'].
  { destruct (set_up s d' Hs) as (s1 & H1 & G1 & D1 & D2). exists s1. split; [exact H1|]. split; [exact G1|]. exists p. left.
    split; [apply Cq, C1|]. right. split; [destruct C2 as [C2|C2]; exact C2|]. intros _. exact D1. }
  assert (Cq' : forall s1, changes q' p -> changes_in s1 h q' p) by (intros s1 H; split; [exact H|destruct q'; try exact I; contradiction]).
  destruct C2 as [C2|C2]; [exists s; split; [exact Hs|]; split; [reflexivity|]; exists p; left; auto|].
  assert (Du : match q' with QUsed _ => True | _ => False end \/ match q' with QUsed _ => False | _ => True end) by (destruct q'; auto).
  destruct Du as [Du|Du].
  - destruct q'; try contradiction. destruct p.
    + destruct (set_up s (B "x") Hs) as (s1 & H1 & G1 & D1 & D2). exists s1. split; [exact H1|]. split; [exact G1|]. exists Language. left. split; [apply Cq, C1|]. right.
      split; [exact I|]. apply has_domain_get in D1. rewrite D2. destruct (h_get s1 h (B "x")) as [t|]; [exists t; reflexivity|congruence].
    + exists s. split; [exact Hs|]. split; [reflexivity|]. exists Current. left. split; [apply Cq, C1|]. right. split; exact I.
    + exists s. split; [exact Hs|]. split; [reflexivity|]. exists Loaded. left. split; [apply Cq, C1|]. right. split; exact I.
    + destruct (set_clear s Hs) as (s1 & H1 & G1 & D1). exists s1. split; [exact H1|]. split; [exact G1|]. exists Source. left. split; [apply Cq, C1|]. right.
      split; [exact I|]. intros t E. rewrite D1 in E. discriminate.
  - exists s. split; [exact Hs|]. split; [reflexivity|]. exists p. left. split; [apply Cq, C1|]. right. split; [exact C2|]. destruct q'; try exact I; contradiction.
Qed.
Lemma clash_swap s (q q' : @rcall A) : clash_in s h q q' -> clash_in s h q' q.
Proof. intros (p & [H|H]); exists p; tauto. Qed.
End Exact.
Theorem C105_exact : forall A (fmt : bytes -> list A -> bytes) norm h q q',
  (exists s, reach_built fmt norm s /\ h < length (s_ts s) /\ on s h q /\ on s h q') ->
  (clash q q' <->
   exists s s' ps, reach_built fmt norm s /\ h < length (s_ts s) /\ on s h q /\ on s h q'
     /\ gsteps norm (s, map (run_request fmt norm [] []) [[q]; [q']]) (s', ps) /\ handle_race ps).
Proof.
  intros A fmt norm h q q' (s0 & R0 & L0 & O1 & O2). split.
  - intros (p & [[C1 C2]|[C1 C2]]).
    + destruct (clash_somewhere A fmt norm h s0 q q' p (conj R0 L0) O1 O2 C1 C2) as (s & [R L] & G & C).
      pose proof (on_same h s0 s q G O1) as P1. pose proof (on_same h s0 s q' G O2) as P2.
      destruct (C105_unsafe A fmt norm s h q q' P1 P2 C) as (s' & ps & St & Ra). exists s, s', ps. repeat (split; [assumption|]). assumption.
    + destruct (clash_somewhere A fmt norm h s0 q' q p (conj R0 L0) O2 O1 C1 C2) as (s & [R L] & G & C).
      pose proof (on_same h s0 s q G O1) as P1. pose proof (on_same h s0 s q' G O2) as P2.
      destruct (C105_unsafe A fmt norm s h q q' P1 P2 (clash_swap A h s q' q C)) as (s' & ps & St & Ra). exists s, s', ps. repeat (split; [assumption|]). assumption.
  - intros (s & s' & ps & R & L & P1 & P2 & St & Ra).
    destruct (clash_dec A q q') as [C|N]; [exact C|]. exfalso.
    apply (C105_safe A fmt norm s h [[q]; [q']] s' ps R L) in St; [exact (St Ra)| |].
    + intros qs x [<-|[<-|[]]] [<-|[]]; assumption.
    + intros i j qs qs' x x' Nij Ei Ej Hx Hx'. destruct i as [|[|i]]; [| |destruct i; discriminate]; (destruct j as [|[|j]]; [| |destruct j; discriminate]); try congruence;
        injection Ei as <-; injection Ej as <-; destruct Hx as [<-|[]]; destruct Hx' as [<-|[]]; [exact N|].
      intros (p & C). apply N. exists p. tauto.
Qed.
Print Assumptions C105_exact.
(** and when all of them have finished, later calls on the handle - made by any
    number of goroutines that do not clash - get the answers they get after the
    first ones ran in turn: nothing is lost, and the order of the accesses does not
    matter *)
Theorem C105_after : forall A (fmt : bytes -> list A -> bytes) norm s h qss s1 ps qss' s2 ps',
  reach_built fmt norm s -> h < length (s_ts s) ->
  (forall qs q, In qs (qss ++ qss') -> In q qs -> on s h q) ->
  (forall i j qs qs' q q', i <> j -> nth_error qss i = Some qs -> nth_error qss j = Some qs' -> In q qs -> In q' qs' -> ~ clash q q') ->
  (forall i j qs qs' q q', i <> j -> nth_error qss' i = Some qs -> nth_error qss' j = Some qs' -> In q qs -> In q' qs' -> ~ clash q q') ->
  gsteps norm (s, map (run_request fmt norm [] []) qss) (s1, ps) -> (forall p, In p ps -> exists rs, p = GRet rs) ->
  gsteps norm (s1, map (run_request fmt norm [] []) qss') (s2, ps') ->
  forall j qs rs, nth_error qss' j = Some qs -> nth_error ps' j = Some (GRet rs) -> rs = by_itself fmt norm (in_turn fmt norm s qss) [] qs.
Proof.
  intros A fmt norm s h qss s1 ps qss' s2 ps' R L Ho Nc Nc' St F St2 j qs rs Eq Er. destruct (start_knows A fmt norm s h R L) as [Bs Kn].
  destruct (turns fmt norm qss s (s, map (run_request fmt norm [] []) qss) [] (reach_built_wf _ _ _ _ R)) as (pt & Ft & Tu & Wt); [intros i p E; destruct i; discriminate|apply GS_refl|].
  assert (Fi : finished ps) by (intros i p E; apply F; eapply nth_error_In, E).
  assert (Ho1 : forall qs1 q, In qs1 qss -> In q qs1 -> on s h q) by (intros qs1 q H; apply Ho, in_or_app; auto).
  destruct (ans_same fmt norm h (s_global s) (changes_dec A) s qss s1 ps (in_turn fmt norm s qss) pt _ _ Bs Kn Ho1 Nc St Fi Tu Ft) as (B1 & B2 & V' & K1 & K2).
  assert (Ho2 : forall qs1 q, In qs1 qss' -> In q qs1 -> on s1 h q).
  { intros qs1 q H Hq. apply (on_same h s s1 q); [exact (b_global _ _ _ B1)|]. apply (Ho qs1 q); [apply in_or_app; auto|exact Hq]. }
  rewrite (ans_gen fmt norm h (s_global s) s1 qss' s2 ps' _ _ B1 K1 Ho2 Nc' St2 j qs rs Eq Er).
  destruct (run_alone fmt norm qs _ [] [] Wt) as (s3 & H3). apply runs_steps in H3. symmetry.
  eapply (ans_gen fmt norm h (s_global s) _ [qs]) with (j := 0); [exact B2|exact K2| |apply one_no_clash|exact H3|reflexivity|reflexivity].
  intros qs1 q [<-|[]] Hq. apply (on_same h s _ q); [exact (b_global _ _ _ B2)|]. apply (Ho qs q); [apply in_or_app; right; eapply nth_error_In, Eq|exact Hq].
Qed.
Print Assumptions C105_after.
(** one goroutine loads into the global handle and asks for its domains, one sets
    its language and asks for it, one sets the language of the source code, two ask
    for the domain: no clash; a translation clashes with every change but that of
    the source language; loading nothing and removing "" clash with nothing *)
Definition quiet_calls : list (list (@rcall nat)) :=
  [[QBind HGlob (B "shop") [] ex_walk; QHas HGlob (B "shop"); QDomains HGlob]; [QSetLocale HGlob (B "de") (B "en"); QLocale HGlob]; [QSetSource HGlob (B "en")];
   [QDomain HGlob]; [QDomain (HShared 0)]].
Example C105_case :
  (forall d, let s := @init nat d in
   reach_built (fun s _ => s) (fun l => l) s /\ 0 < length (s_ts s) /\ (forall qs q, In qs quiet_calls -> In q qs -> on s 0 q))
  /\ (forall i j qs qs' q q', i <> j -> nth_error quiet_calls i = Some qs -> nth_error quiet_calls j = Some qs' -> In q qs -> In q' qs' -> ~ clash q q')
  /\ (let x := @QX nat HGlob [] (B "one") [] in
      clash x (QSetLocale HGlob (B "de") (B "en")) /\ clash x (QSetDomain HGlob (B "shop")) /\ clash x (QBind HGlob (B "shop") [] ex_walk)
      /\ clash x (QRemove HGlob (B "shop")) /\ clash x (QClear HGlob) /\ ~ clash x (QSetSource HGlob (B "en")) /\ ~ clash x x
      /\ ~ clash x (QRemove HGlob []) /\ ~ clash x (QBind HGlob (B "shop") [] []))
  /\ (forall d, clash_in (@init nat d) 0 (QClear HGlob) (QX HGlob [] (B "one") []))
  /\ map (fun qs => by_itself (fun s _ => s) (fun l => l) (@init nat (B "x")) [] qs) quiet_calls
     = [[ANone; ABool true; ANames [B "shop"]]; [ANone; AText (B "de")]; [ANone]; [AText (B "default")]; [AText (B "default")]]
  /\ by_itself (fun s _ => s) (fun l => l) (in_turn (fun s _ => s) (fun l => l) (@init nat (B "x")) quiet_calls) [] [QHas HGlob (B "shop"); QLocale HGlob; QSource HGlob; QDomain HGlob]
     = [ABool true; AText (B "de"); AText (B "en"); AText (B "default")].
Proof.
  split; [|split; [|split; [|split; [|split]]]].
  - intros d s. split; [constructor|]. split; [repeat constructor|]. unfold quiet_calls. intros qs q Hqs Hq.
    repeat (destruct Hqs as [<-|Hqs]; [repeat (destruct Hq as [<-|Hq]; [reflexivity|]); contradiction|]). contradiction.
  - unfold quiet_calls. intros i j qs qs' q q' N Ei Ej Hq Hq' (p & C).
    do 6 (try (destruct i as [|i]; [injection Ei as <-|cbn [nth_error] in Ei])); try (destruct i; discriminate); try discriminate;
    do 6 (try (destruct j as [|j]; [try congruence; injection Ej as <-|cbn [nth_error] in Ej])); try (destruct j; discriminate); try discriminate;
    cbn [In] in Hq, Hq';
    repeat (destruct Hq as [<-|Hq]; [|]); try contradiction; repeat (destruct Hq' as [<-|Hq']; [|]); try contradiction;
    cbn [changes uses] in C; clear - C; intuition congruence.
  - assert (L : loads [] ex_walk) by apply loads_ex.
    assert (N : ~ loads [] []) by (intros [(x & [] & _)|(x & [] & _)]).
    cbv zeta. repeat split.
    + exists Language. right. cbn. split; [reflexivity|right; discriminate].
    + exists Current. right. cbn. split; [reflexivity|right; discriminate].
    + exists Loaded. right. cbn [changes uses]. split; [auto|right; discriminate].
    + exists Loaded. right. cbn [changes uses]. split; [split; [auto|discriminate]|right; discriminate].
    + exists Loaded. right. cbn [changes uses]. split; [auto|right; discriminate].
    + intros (p & C). cbn [changes uses] in C. intuition congruence.
    + intros (p & C). cbn [changes uses] in C. intuition congruence.
    + intros (p & C). cbn [changes uses] in C. intuition congruence.
    + intros (p & C). cbn [changes uses] in C. intuition congruence.
  - intros d. exists Loaded. left. split; [split; [left; reflexivity|exact I]|]. right. split; [discriminate|exact I].
  - vm_compute. reflexivity.
  - vm_compute. reflexivity.
Qed.

(** ** C81 exactly: which calls on the global handle may be made while others
    translate through it.  One call and one translation race, in some state and
    order, if and only if the call changes the language, the current domain or the
    loaded domains; *)
Definition disturbs {A} (q : @rcall A) : Prop := exists p, changes q p /\ p <> Source.
Theorem C81_exactly : forall A (fmt : bytes -> list A -> bytes) norm g (q : @rcall A) c i args,
  (exists s, reach_built fmt norm s /\ g < length (s_ts s) /\ s_global s = g /\ on s g q) ->
  (disturbs q <->
   exists s s' ps, reach_built fmt norm s /\ g < length (s_ts s) /\ s_global s = g /\ on s g q
     /\ gsteps norm (s, map (run_request fmt norm [] []) [[q]; [QX HGlob c i args]]) (s', ps) /\ handle_race ps).
Proof.
  intros A fmt norm g q c i args (s0 & R0 & L0 & G0 & O0).
  assert (C : clash q (QX HGlob c i args) <-> disturbs q).
  { split.
    - intros (p & [(H & [[]|U])|([] & _)]). exists p. split; [exact H|exact U].
    - intros (p & H & N). exists p. left. split; [exact H|right; exact N]. }
  rewrite <- C. rewrite (C105_exact A fmt norm g q (QX HGlob c i args)) by (exists s0; repeat split; assumption).
  split; intros (s & s' & ps & R & L & O & O' & S & Rc); exists s, s', ps; repeat split; assumption.
Qed.
Print Assumptions C81_exactly.
(** and any number of goroutines may translate through it while others make any
    calls that do not: no race, and all get the answers they get alone. *)
Theorem C81_undisturbed : forall A (fmt : bytes -> list A -> bytes) norm s boss qss s' p ps,
  reach_built fmt norm s -> s_global s < length (s_ts s) ->
  (forall q, In q boss -> on s (s_global s) q /\ ~ disturbs q) ->
  (forall qs q, In qs qss -> In q qs ->
     (exists c i args, q = QX HGlob c i args) \/ (exists c i i2 n args, q = QXN HGlob c i i2 n args)) ->
  gsteps norm (s, map (run_request fmt norm [] []) (boss :: qss)) (s', p :: ps) ->
  ~ handle_race (p :: ps)
  /\ (forall rs, p = GRet rs -> rs = by_itself fmt norm s [] boss)
  /\ forall j qs rs, nth_error qss j = Some qs -> nth_error ps j = Some (GRet rs) -> rs = by_itself fmt norm s [] qs.
Proof.
  intros A fmt norm s boss qss s' p ps R L Hb Hq S.
  assert (O : forall qs q, In qs (boss :: qss) -> In q qs -> on s (s_global s) q).
  { intros qs q [<-|I] Iq; [apply Hb, Iq|]. destruct (Hq qs q I Iq) as [(c & i & a & ->)|(c & i & i2 & n & a & ->)]; reflexivity. }
  assert (T : forall qs q pt, In qs qss -> In q qs -> ~ changes q pt /\ (uses q pt -> pt <> Source)).
  { intros qs q pt I Iq. destruct (Hq qs q I Iq) as [(c & i & a & ->)|(c & i & i2 & n & a & ->)]; split; auto. }
  assert (N : forall i j qs qs' q q', i <> j -> nth_error (boss :: qss) i = Some qs -> nth_error (boss :: qss) j = Some qs' ->
     In q qs -> In q' qs' -> ~ clash q q').
  { intros i j qs qs' q q' D Ei Ej Iq Iq' (pt & Cl). destruct i as [|i], j as [|j]; cbn [nth_error] in Ei, Ej; [congruence| | |].
    - injection Ei as <-. apply nth_error_In in Ej. destruct (T _ _ pt Ej Iq') as [T1 T2]. destruct (Hb q Iq) as [_ Nd].
      destruct Cl as [(Ch & [Ch'|U])|(Ch & _)]; [exact (T1 Ch')| |exact (T1 Ch)]. apply Nd. exists pt. split; [exact Ch|apply T2, U].
    - injection Ej as <-. apply nth_error_In in Ei. destruct (T _ _ pt Ei Iq) as [T1 T2]. destruct (Hb q' Iq') as [_ Nd].
      destruct Cl as [(Ch & _)|(Ch & [Ch'|U])]; [exact (T1 Ch)|exact (T1 Ch')|]. apply Nd. exists pt. split; [exact Ch|apply T2, U].
    - apply nth_error_In in Ei, Ej. destruct (T _ _ pt Ei Iq) as [T1 _], (T _ _ pt Ej Iq') as [T2 _].
      destruct Cl as [(Ch & _)|(Ch & _)]; [exact (T1 Ch)|exact (T2 Ch)]. }
  split; [exact (C105_safe A fmt norm s (s_global s) (boss :: qss) s' (p :: ps) R L O N S)|].
  pose proof (C105_answers A fmt norm s (s_global s) (boss :: qss) s' (p :: ps) R L O N S) as An. split.
  - intros rs ->. exact (An 0 boss rs eq_refl eq_refl).
  - intros j qs rs E E'. exact (An (Datatypes.S j) qs rs E E').
Qed.
Print Assumptions C81_undisturbed.
Example C81_exactly_case : forall d,
  let s := @init nat d in
  reach_built (fun s _ => s) (fun l => l) s /\ 0 < length (s_ts s) /\ s_global s = 0
  /\ on s 0 (QSetSource HGlob (B "de")) /\ ~ disturbs (@QSetSource nat HGlob (B "de")) /\ ~ disturbs (@QBind nat HGlob (B "shop") [] [])
  /\ on s 0 (QSetLocale HGlob (B "de") d) /\ disturbs (@QSetLocale nat HGlob (B "de") d) /\ disturbs (@QClear nat HGlob).
Proof.
  intros d s. split; [constructor|]. split; [repeat constructor|]. split; [reflexivity|]. split; [reflexivity|].
  split; [intros (p & C & N); cbn in C; congruence|].
  split; [intros (p & (_ & [(x & [] & _)|(x & [] & _)]) & _)|]. split; [reflexivity|].
  split; [exists Language; split; [reflexivity|discriminate]|]. exists Loaded. split; [left; reflexivity|discriminate].
Qed.
