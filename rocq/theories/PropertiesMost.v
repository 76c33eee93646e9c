(** C108: a program that chooses its language with MostMatchLocale. *)
From Coq Require Import List Lia Permutation.
From Verif Require Import GoStr GoStrFacts GoMap GoMapFacts FileModel PoModel MoModel TransModel TransSpec TransFacts TransFrameFacts TransViewFacts TransQuietFacts TransLoadFacts
  LocaleModel LocaleSpec LocaleFacts GlobalModel ServeSpec PropertiesTrans PropertiesLocale PropertiesServe.
Import ListNotations.

Section Choose.
Context {A : Type}.
Variable fmt : bytes -> list A -> bytes.
Variable norm : bytes -> bytes.
Notation state := (@state A).
Lemma set_is (s : state) h l d : set_locale norm s h l d = retarget s h (h_domain s h) (match l with [] => d | _ => norm l end).
Proof. destruct l; reflexivity. Qed.
(** what a handle shows after SetLocale, in terms of the state before *)
Lemma chosen (s : state) h l d : reach_clean fmt norm s -> h < length (s_ts s) ->
  let s' := set_locale norm s h l d in let lc := match l with [] => d | _ => norm l end in
  h_locale s' h = lc /\ h_domain s' h = h_domain s h /\ h_source s' h = h_source s h
  /\ (page_from fmt s h (h_domain s h) lc s' h \/ (forall x, ~ offers s h (h_domain s h) lc x) /\ page_plain fmt s h s' h).
Proof.
  intros R H. cbn zeta. assert (R' : reach_clean fmt norm (set_locale norm s h l d)).
  { change (set_locale norm s h l d) with (do_op fmt norm s (OSetLocale h l d)). apply RC_step; [exact R|exact H|intros []]. }
  rewrite set_is in *. set (lc := match l with [] => d | _ => norm l end) in *. set (s' := retarget s h (h_domain s h) lc) in *.
  assert (Hl : h_locale s' h = lc) by (apply retarget_locale, H). assert (Hd : h_domain s' h = h_domain s h) by (apply retarget_domain, H).
  assert (Hs : h_source s' h = h_source s h) by (unfold h_source, s'; rewrite retarget_ts by exact H; reflexivity).
  assert (Hm : forall dm, h_get s' h dm = h_get s h dm) by (intros dm; unfold h_get, h_domains, s'; rewrite retarget_ts by exact H; reflexivity).
  repeat (split; [assumption|]).
  destruct (C42_used_partial fmt norm s' h R') as [(t & x & G & L & U & X)|(G & U & X)].
  - left. exists x. rewrite Hd, Hm in G. rewrite Hl in L. split; [exists t; auto|]. split; [congruence|]. destruct x; exact X.
  - right. split; [|split; [congruence|exact X]]. intros x (t & G' & L'). rewrite Hd, Hm in G. specialize (G t G'). rewrite Hl in G. 
    change (the_tr s' t) with (the_tr s t) in G. congruence.
Qed.
Lemma same_locales (s : state) h l d out : h < length (s_ts s) -> locales norm (set_locale norm s h l d) h out <-> locales norm s h out.
Proof.
  intros H. rewrite set_is. unfold locales, h_source, h_domain, h_get_or_noop, h_get, h_domains. rewrite retarget_ts by exact H. cbn [t_domain t_source t_map]. reflexivity.
Qed.
Lemma retarget_other (s : state) h dm l h' : wf s -> h < length (s_ts s) -> h' < length (s_ts s) -> h' <> h -> same_view fmt norm s h' (retarget s h dm l) h'.
Proof.
  intros W H H' N. apply same_view_of; [exact W| |split; auto; intros; apply same_file_refl].
  assert (E : the_ts (retarget s h dm l) h' = the_ts s h') by (unfold the_ts, retarget, set_ts; cbn [s_ts]; apply nth_upd_other, N).
  apply (handle_eq _ _ _ _ _ _ eq_refl E); auto. unfold retarget, set_ts. cbn [s_ts]. rewrite upd_length. exact H'.
Qed.
End Choose.

Section Most.
Context {A : Type}.
Variable fmt : bytes -> list A -> bytes.
Variable tag : Type.
Variable make : bytes -> tag.
Variable base region : tag -> bytes.
Notation norm := (normalize tag make base region).
Notation name_of := (normalize_tag tag base region).
Notation state := (@state A).
Hypothesis Rd : forall t, base (make (name_of t)) = base t /\ region (make (name_of t)) = region t.
Hypothesis En : exists t, name_of t = B "en_US".
Variable mtch : list bytes -> list bytes -> nat.
Hypothesis M : forall supported wanted, supported <> [] -> mtch supported wanted < length supported.

(** [t.SetLocale(t.MostMatchLocale())]: the language chosen among Locales() is the one that is used, under that very
    name: the texts are those of its catalog, or it is the language of the source code and they are those of the
    source code.  Locales() stay and other handles see nothing of it. *)
Theorem C108_speaks_partial : forall (s : state) out d, reach_on fmt norm (of_tag tag base region) s -> reach_clean fmt norm s ->
  most_match_locale norm mtch s (s_global s) out ->
  let g := s_global s in
  exists ls l, locales norm s g ls /\ nth_error ls (mtch ls [g_locale s]) = Some l /\ out = Some l /\
  let s' := g_set_locale norm s l d in
  s_global s' = g /\ g_locale s' = l /\ g_used s' = l /\ g_domain s' = g_domain s
  /\ (page_from fmt s g (g_domain s) l s' g \/ l = g_source s /\ (forall x, ~ offers s g (g_domain s) l x) /\ page_plain fmt s g s' g)
  /\ (forall ls', locales norm s' g ls' <-> locales norm s g ls')
  /\ forall h, h < length (s_ts s) -> h <> g -> same_view fmt norm s h s' h.
Proof.
  intros s out d Ro R Mo. cbn zeta. unfold g_locale, g_used, g_domain, g_source, g_set_locale in *.
  pose proof (reach_wf norm fmt s (reach_clean_reach fmt norm s R)) as W. pose proof (w_global s W) as Hg.
  destruct (C75_canonical fmt tag make base region Rd En) as (Id & Ca). destruct (Ca s (s_global s) Ro Hg) as (_ & _ & _ & Cl).
  destruct Mo as (ls & L & ->). exists ls. destruct (C41_locales norm s (s_global s) ls L) as (Ne & _).
  pose proof (M ls [h_locale s (s_global s)] Ne) as Lt.
  destruct (nth_error ls (mtch ls [h_locale s (s_global s)])) as [l|] eqn:Q; [|apply nth_error_None in Q; lia].
  exists l. split; [exact L|]. split; [reflexivity|]. split; [reflexivity|].
  pose proof (nth_error_In _ _ Q) as Il. specialize (Cl ls L). rewrite Forall_forall in Cl. specialize (Cl l Il). cbn beta in Cl.
  assert (Nl : match l with [] => d | _ => norm l end = l).
  { destruct l as [|z l]; [|exact Cl]. exfalso. unfold normalize, normalize_tag in Cl. destruct (base (make [])); discriminate. }
  destruct (chosen fmt norm s (s_global s) l d R Hg) as (P1 & P2 & P3 & P4). cbn zeta in *. rewrite Nl in P1, P4.
  assert (Gs : s_global (set_locale norm s (s_global s) l d) = s_global s) by (rewrite set_is; reflexivity). rewrite Gs.
  split; [reflexivity|]. split; [exact P1|].
  assert (K : used_locale (set_locale norm s (s_global s) l d) (s_global s) = l /\
    (page_from fmt s (s_global s) (h_domain s (s_global s)) l (set_locale norm s (s_global s) l d) (s_global s)
     \/ l = h_source s (s_global s) /\ (forall x, ~ offers s (s_global s) (h_domain s (s_global s)) l x)
        /\ page_plain fmt s (s_global s) (set_locale norm s (s_global s) l d) (s_global s))).
  { destruct P4 as [F|(N & F)].
    - split; [|left; exact F]. destruct F as (x & _ & U & _). exact U.
    - destruct (proj1 (C41_exact fmt norm s (s_global s) ls R Id L l) Il) as [Es|(t & Gt & Lt')].
      + split; [destruct F; congruence|]. right. auto.
      + exfalso. destruct (tr_get (the_tr s t) l) as [x|] eqn:X; [|contradiction]. apply (N x). exists t. auto. }
  destruct K as [K1 K2]. split; [exact K1|]. split; [exact P2|]. split; [exact K2|]. split.
  - intros ls'. apply same_locales, Hg.
  - intros h H N. rewrite set_is. apply retarget_other; assumption.
Qed.
(** if the matcher gives a supported language to whoever wants just that one, doing it again changes nothing *)
Theorem C108_again : forall (s : state) l d, reach_on fmt norm (of_tag tag base region) s -> reach_clean fmt norm s ->
  (forall ls x, In x ls -> nth_error ls (mtch ls [x]) = Some x) ->
  most_match_locale norm mtch s (s_global s) (Some l) ->
  let s' := g_set_locale norm s l d in
  forall out, most_match_locale norm mtch s' (s_global s') out -> out = Some l /\ forall d', g_set_locale norm s' l d' = s'.
Proof.
  intros s l d Ro R Ex Mo s' out Mo'. pose proof (reach_wf norm fmt s (reach_clean_reach fmt norm s R)) as W. pose proof (w_global s W) as Hg.
  destruct (C108_speaks_partial s (Some l) d Ro R Mo) as (ls & l0 & L & Q & El & G1 & G2 & _ & _ & _ & Ls & _). injection El as <-.
  fold s' in G1, G2, Ls. destruct Mo' as (ls' & L' & ->). rewrite G1 in L'. apply Ls in L'. unfold g_locale in G2. rewrite G2.
  assert (Il : In l ls') .
  { pose proof (nth_error_In _ _ Q) as I. destruct (C75_canonical fmt tag make base region Rd En) as (Id & _).
    apply (C41_exact fmt norm s (s_global s) ls' R Id L'). apply (C41_exact fmt norm s (s_global s) ls R Id L). exact I. }
  split; [apply Ex, Il|]. intros d'. unfold g_set_locale. rewrite G1.
  destruct (C75_canonical fmt tag make base region Rd En) as (Id & Ca). destruct (Ca s (s_global s) Ro Hg) as (_ & _ & _ & Cl).
  specialize (Cl ls' L'). rewrite Forall_forall in Cl. specialize (Cl l Il). cbn beta in Cl.
  assert (Nl : forall d, match l with [] => d | _ => norm l end = l).
  { intros e. destruct l as [|z l]; [|exact Cl]. exfalso. unfold normalize, normalize_tag in Cl. destruct (base (make [])); discriminate. }
  unfold s', g_set_locale. rewrite !set_is, !Nl. unfold retarget at 1. rewrite retarget_domain by exact Hg. rewrite retarget_ts by exact Hg.
  unfold retarget, set_ts. cbn [s_ts s_maps s_trs s_files s_global t_map t_source]. rewrite upd_upd. reflexivity.
Qed.
End Most.
(** the method asks the global handle: what any other handle shows that follows the advice *)
Theorem C108_handle : forall {A} (fmt : bytes -> list A -> bytes) norm mtch (s : state) h l d, reach_clean fmt norm s -> h < length (s_ts s) ->
  norm l = l -> l <> [] -> most_match_locale norm mtch s h (Some l) ->
  let s' := set_locale norm s h l d in
  (exists ls, locales norm s (s_global s) ls /\ In l ls) /\ h_locale s' h = l /\ h_domain s' h = h_domain s h
  /\ (page_from fmt s h (h_domain s h) l s' h \/ (forall x, ~ offers s h (h_domain s h) l x) /\ page_plain fmt s h s' h).
Proof.
  intros A fmt norm mtch s h l d R H N Ne (ls & L & E). cbn zeta. split; [exists ls; split; [exact L|symmetry in E; exact (nth_error_In _ _ E)]|].
  destruct (chosen fmt norm s h l d R H) as (P1 & P2 & _ & P4). cbn zeta in *.
  assert (Nl : match l with [] => d | _ => norm l end = l) by (destruct l; [contradiction|exact N]). rewrite Nl in P1, P4. auto.
Qed.
Print Assumptions C108_speaks_partial.
Print Assumptions C108_handle.
Print Assumptions C108_again.

(** ** a program on a Chinese system: domain default in German, domain shop in
    Chinese, and a second handle that reads the shop *)
Definition mm : @state unit :=
  fold_left (do_op ex_fmt ex_norm) [OBind 0 (B "default") [] (sv_walk "de.po" (sv_po "de" "hallo")); OBind 0 (B "shop") [] (sv_walk "zh.po" (sv_po "zh-CN" "ni hao"));
    OD 0 (B "shop")] (init (B "zh_CN")).
Definition mm2 : @state unit := do_op ex_fmt ex_norm mm (OSetDomain 0 (B "shop")).
Lemma mm_on : reach_on ex_fmt ex_norm (of_tag ex_tag ex_base ex_region) mm.
Proof. unfold mm. cbn [fold_left]. repeat (apply RO_step; [|vm_compute; lia|exact I]). apply RO_init. exists Zh. reflexivity. Qed.
Lemma mm_clean : reach_clean ex_fmt ex_norm mm.
Proof. unfold mm. cbn [fold_left]. repeat (apply RC_step; [|vm_compute; lia|intros []]). apply RC_init. Qed.
(** a matcher that finds the wanted language, else the first *)
Definition mm_match (supported wanted : list bytes) : nat :=
  match find (fun i => beq (nth i supported []) (hd [] wanted)) (seq 0 (length supported)) with Some i => i | None => 0 end.
Lemma mm_range supported wanted : supported <> [] -> mm_match supported wanted < length supported.
Proof.
  intros N. unfold mm_match. destruct (find _ _) as [i|] eqn:E; [|destruct supported; [contradiction|cbn; lia]].
  apply find_some in E as [E _]. apply in_seq in E. lia.
Qed.
Lemma mm_exact ls x : In x ls -> nth_error ls (mm_match ls [x]) = Some x.
Proof.
  intros I. unfold mm_match. cbn [hd]. destruct (find _ _) as [i|] eqn:E.
  - apply find_some in E as [E Q]. apply in_seq in E. destruct (beq_spec (nth i ls []) x) as [<-|]; [|discriminate]. apply nth_error_nth'. lia.
  - exfalso. apply In_nth with (d := []) in I as (i & Li & Q). assert (In i (seq 0 (length ls))) as Is by (apply in_seq; lia).
    pose proof (find_none _ _ E i Is) as F. cbn beta in F. rewrite Q in F. destruct (beq_spec x x); [discriminate|contradiction].
Qed.
Lemma mm_most : most_match_locale ex_norm mm_match mm (s_global mm) (Some (B "de_DE")).
Proof.
  exists [B "de_DE"; B "en_US"]. split; [|reflexivity].
  exists [B "de_DE"]. split; [vm_compute; repeat constructor|]. split; [vm_compute; apply perm_swap|].
  cbn [sorted_strings]. repeat split; intros y; [intros [<-|[]]|intros []]. vm_compute. reflexivity.
Qed.
Lemma mm2_most : most_match_locale ex_norm mm_match mm2 (s_global mm2) (Some (B "zh_CN")).
Proof.
  exists [B "en_US"; B "zh_CN"]. split; [|reflexivity].
  exists [B "zh_CN"]. split; [vm_compute; repeat constructor|]. split; [vm_compute; repeat constructor|].
  cbn [sorted_strings]. repeat split; intros y; [intros [<-|[]]|intros []]. vm_compute. reflexivity.
Qed.
Example C108_case :
  reach_on ex_fmt ex_norm (of_tag ex_tag ex_base ex_region) mm /\ reach_clean ex_fmt ex_norm mm
  /\ reach_on ex_fmt ex_norm (of_tag ex_tag ex_base ex_region) mm2 /\ reach_clean ex_fmt ex_norm mm2
  /\ (forall supported wanted, supported <> [] -> mm_match supported wanted < length supported)
  /\ (forall ls x, In x ls -> nth_error ls (mm_match ls [x]) = Some x)
  /\ most_match_locale ex_norm mm_match mm (s_global mm) (Some (B "de_DE"))
  /\ most_match_locale ex_norm mm_match mm2 (s_global mm2) (Some (B "zh_CN"))
  /\ ex_norm (B "de_DE") = B "de_DE"
  /\ h_x ex_fmt (g_set_locale ex_norm mm (B "de_DE") (B "zh_CN")) 0 [] (B "hi") [] = B "hallo"
  /\ h_x ex_fmt (g_set_locale ex_norm mm2 (B "zh_CN") (B "zh_CN")) 0 [] (B "hi") [] = B "ni hao".
Proof.
  split; [exact mm_on|]. split; [exact mm_clean|].
  split; [apply RO_step; [exact mm_on|vm_compute; lia|exact I]|]. split; [apply RC_step; [exact mm_clean|vm_compute; lia|intros []]|].
  split; [exact mm_range|]. split; [exact mm_exact|]. split; [exact mm_most|]. split; [exact mm2_most|]. repeat split.
Qed.
(** a handle of its own: the second handle reads the shop, which is in Chinese, and its language is Chinese, yet its
    MostMatchLocale names German, and following it turns the Chinese texts into those of the source code *)
Theorem C108_handle_refuted : exists (s : @state unit) mtch h l,
  reach_on ex_fmt ex_norm (of_tag ex_tag ex_base ex_region) s /\ reach_clean ex_fmt ex_norm s /\ h < length (s_ts s)
  /\ (forall supported wanted, supported <> [] -> mtch supported wanted < length supported)
  /\ (forall ls x, In x ls -> nth_error ls (mtch ls [x]) = Some x)
  /\ most_match_locale ex_norm mtch s h (Some l)
  /\ used_locale s h = B "zh_CN" /\ h_x ex_fmt s h [] (B "hi") [] = B "ni hao"
  /\ let s' := set_locale ex_norm s h l (B "zh_CN") in
     used_locale s' h <> l /\ h_x ex_fmt s' h [] (B "hi") [] = B "hi".
Proof.
  exists mm, mm_match, 1, (B "de_DE"). split; [exact mm_on|]. split; [exact mm_clean|]. split; [vm_compute; lia|].
  split; [exact mm_range|]. split; [exact mm_exact|]. split; [exact mm_most|]. split; [reflexivity|]. split; [reflexivity|].
  cbv zeta. split; [vm_compute; discriminate|reflexivity].
Qed.
Print Assumptions C108_handle_refuted.
