(** C104: a page is answered in the language of its request. *)
From Coq Require Import List Lia Permutation.
From Verif Require Import GoStr GoStrFacts GoMap GoMapFacts FileModel PoModel MoModel TransModel TransSpec TransFacts TransFrameFacts TransViewFacts TransQuietFacts TransLoadFacts LocaleModel LocaleSpec LocaleFacts ServeSpec PropertiesTrans PropertiesLocale.
Import ListNotations.
Section C104.
Context {A : Type}.
Variable fmt : bytes -> list A -> bytes.
Variable norm : bytes -> bytes.
Notation state := (@state A).
Lemma says_last cookie opts v : cookie_says cookie opts v -> cookie (last opts (B "lang")) = v.
Proof.
  intros [[-> ->]|(b & n & -> & ->)]; [reflexivity|]. rewrite last_last. reflexivity.
Qed.
(** the handle of a context, in terms of the state before *)
Lemma page (s : state) c dom l d : reach_clean fmt norm s -> private c -> most_recent c KDomain dom ->
  let g := s_global s in
  let p := with_context norm s (set_ctx_locale c l) d in
  let dm := match dom with Some x => x | None => h_domain s g end in
  let lc := match l with [] => d | _ => norm l end in
  h_locale (snd p) (fst p) = lc /\ h_domain (snd p) (fst p) = dm
  /\ (page_from fmt s g dm lc (snd p) (fst p)
      \/ (forall x, ~ offers s g dm lc x) /\ page_plain fmt s g (snd p) (fst p)).
Proof.
  intros R P Md. cbn zeta. pose proof (reach_clean_reach fmt norm s R) as R0. pose proof (reach_wf norm fmt s R0) as W.
  pose proof (w_global s W) as Hg. set (c' := set_ctx_locale c l).
  assert (El : get_ctx_locale c' = Some l) by reflexivity.
  assert (Ed : get_ctx_domain c' = dom).
  { change (get_ctx_domain c' ) with (get_ctx_domain c). eapply most_recent_unique; [apply most_recent_get; auto|exact Md]. }
  pose proof (with_new fmt norm s c' d W) as N. cbn zeta in N. rewrite El, Ed in N.
  pose proof (with_parts norm s c' d) as (T1 & T2).
  assert (R' : reach_clean fmt norm (snd (with_context norm s c' d))).
  { change (snd (with_context norm s c' d)) with (do_op fmt norm s (OWith c' d)). apply RC_step; [exact R|exact I|intros []]. }
  destruct (with_context norm s c' d) as [h' s']. cbn [fst snd] in *. destruct N as (S & _ & _).
  set (dm := match dom with Some x => x | None => _ end) in *.
  assert (Ec : spelled norm l d = match l with [] => d | _ => norm l end) by (destruct l; reflexivity).
  rewrite Ec in S. set (lc := match l with [] => d | _ => norm l end) in *.
  assert (Hl : h_locale s' h' = lc) by (rewrite <- (sh_locale _ _ _ _ S); apply retarget_locale, Hg).
  assert (Hd : h_domain s' h' = dm) by (rewrite <- (sh_domain _ _ _ _ S); apply retarget_domain, Hg).
  assert (Hs : h_source s' h' = h_source s (s_global s)).
  { rewrite <- (sh_source _ _ _ _ S). unfold h_source. rewrite retarget_ts by exact Hg. reflexivity. }
  assert (Hm : h_get s' h' dm = h_get s (s_global s) dm).
  { unfold h_get. rewrite <- (sh_domains _ _ _ _ S). unfold h_domains. rewrite retarget_ts by exact Hg. reflexivity. }
  split; [exact Hl|]. split; [exact Hd|].
  assert (Tr : forall t, the_tr s' t = the_tr s t) by (intros t; unfold the_tr; rewrite T1; reflexivity).
  assert (Tf : forall a, the_file s' a = the_file s a) by (intros t; unfold the_file; rewrite T2; reflexivity).
  destruct (C42_used_partial fmt norm s' h' R') as [(t & x & G & L & U & X)|(G & U & X)].
  - left. exists x. rewrite Hd, Hm in G. rewrite Tr, Hl in L. split; [exists t; auto|]. split; [congruence|].
    destruct x as [|a|u]; cbn [told_by answers_tor] in *; try exact X. rewrite <- Tf. exact X.
  - right. split; [|split; [congruence|exact X]]. intros x (t & G' & L'). rewrite Hd, Hm in G. specialize (G t G').
    rewrite Tr, Hl in G. congruence.
Qed.
(** For every request: a handler that takes the language from GetUserLang, puts
    it into the context and translates through WithContext answers from the
    catalog of that language in the domain of the context, and if there is none
    with the texts of the source code, and UsedLocale tells which.  An empty
    cookie stands for the language of the system.  Other handles see nothing of
    it. *)
Theorem C104_page : forall mtch, (forall supported accept, supported <> [] -> mtch supported accept < length supported) ->
  forall (s : state) cookie accept opts out c dom d, reach_clean fmt norm s -> private c -> most_recent c KDomain dom ->
  get_user_lang norm mtch s cookie accept opts out ->
  let g := s_global s in
  exists l, out = Some l /\
  let h' := fst (with_context norm s (set_ctx_locale c l) d) in
  let s' := snd (with_context norm s (set_ctx_locale c l) d) in
  let dm := match dom with Some x => x | None => h_domain s g end in
  let lc := match l with [] => d | _ => norm l end in
  (page_from fmt s g dm lc s' h' \/ (forall x, ~ offers s g dm lc x) /\ page_plain fmt s g s' h')
  /\ length (s_ts s) <= h' /\ forall h0, h0 < length (s_ts s) -> same_view fmt norm s h0 s' h0.
Proof.
  intros mtch M s cookie accept opts out c dom d R P Md G. cbn zeta.
  pose proof (C47_user_lang fmt norm mtch M s cookie accept opts out G) as U.
  assert (E : exists l, out = Some l).
  { destruct (cookie (last opts (B "lang"))); [eauto|]. destruct U as (ls & l & _ & _ & ->). eauto. }
  destruct E as (l & ->). exists l. split; [reflexivity|].
  destruct (page s c dom l d R P Md) as (_ & _ & Q). cbn zeta in Q. split; [exact Q|].
  pose proof (reach_wf norm fmt s (reach_clean_reach fmt norm s R)) as W. split.
  - pose proof (with_new fmt norm s (set_ctx_locale c l) d W) as N. cbn zeta in N. apply N.
  - intros h0 H0. destruct (TransViewFacts.with_frame fmt norm s (set_ctx_locale c l) d h0 W H0). apply same_view_of; assumption.
Qed.
(** the cookie decides, the last name given counts *)
Theorem C104_cookie : forall mtch (s : state) cookie accept opts v, cookie_says cookie opts (Some v) ->
  forall out, get_user_lang norm mtch s cookie accept opts out <-> out = Some v.
Proof.
  intros mtch s cookie accept opts v C out. apply says_last in C. unfold get_user_lang.
  assert (E : fold_left (fun _ o => o) opts (B "lang") = last opts (B "lang")).
  { generalize (B "lang") as z. clear. induction opts as [|x r IH]; intros z; [reflexivity|]. cbn [fold_left]. rewrite IH.
    destruct r as [|y r]; [reflexivity|]. cbn [last]. clear. revert y. induction r as [|w r IH]; intros y; [reflexivity|]. exact (IH w). }
  rewrite E, C. reflexivity.
Qed.
End C104.
Section Negotiated.
Context {A : Type}.
Variable fmt : bytes -> list A -> bytes.
Variable tag : Type.
Variable make : bytes -> tag.
Variable base region : tag -> bytes.
Notation norm := (normalize tag make base region).
Notation name_of := (normalize_tag tag base region).
(** Without a cookie the page is in the language the matcher chose among
    Locales(), under that very name: from its catalog, or it is the language of
    the source code and the page has its texts.
    Full statement: whatever domain the context names.  Missing: contexts that
    name another domain than the global handle (C104_domain_refuted). *)
Theorem C104_negotiated_partial : (forall t, base (make (name_of t)) = base t /\ region (make (name_of t)) = region t) ->
  (exists t, name_of t = B "en_US") ->
  forall mtch, (forall supported accept, supported <> [] -> mtch supported accept < length supported) ->
  forall (s : @state A) cookie accept opts out c dom d,
  reach_on fmt norm (of_tag tag base region) s -> reach_clean fmt norm s -> private c ->
  most_recent c KDomain dom -> dom = None \/ dom = Some (h_domain s (s_global s)) ->
  cookie_says cookie opts None -> get_user_lang norm mtch s cookie accept opts out ->
  let g := s_global s in
  exists ls l, locales norm s g ls /\ nth_error ls (mtch ls accept) = Some l /\ out = Some l /\
  let h' := fst (with_context norm s (set_ctx_locale c l) d) in
  let s' := snd (with_context norm s (set_ctx_locale c l) d) in
  h_locale s' h' = l /\ used_locale s' h' = l
  /\ (page_from fmt s g (h_domain s g) l s' h' \/ l = h_source s g /\ (forall x, ~ offers s g (h_domain s g) l x) /\ page_plain fmt s g s' h').
Proof.
  intros Rd En mtch M s cookie accept opts out c dom d Ro R P Md Dm C G. cbn zeta. apply says_last in C.
  pose proof (reach_wf norm fmt s (reach_clean_reach fmt norm s R)) as W. pose proof (w_global s W) as Hg.
  destruct (C75_canonical fmt tag make base region Rd En) as (Id & Ca).
  destruct (Ca s (s_global s) Ro Hg) as (_ & Cs & _ & Cl).
  unfold get_user_lang in G.
  assert (E : fold_left (fun _ o => o) opts (B "lang") = last opts (B "lang")).
  { generalize (B "lang") as z. clear. induction opts as [|x r IH]; intros z; [reflexivity|]. cbn [fold_left]. rewrite IH.
    destruct r as [|y r]; [reflexivity|]. cbn [last]. clear. revert y. induction r as [|w r IH]; intros y; [reflexivity|]. exact (IH w). }
  rewrite E, C in G. destruct G as (ls & L & ->). exists ls.
  destruct (C41_locales norm s (s_global s) ls L) as (Ne & _). specialize (M ls accept Ne).
  destruct (nth_error ls (mtch ls accept)) as [l|] eqn:Q; [|apply nth_error_None in Q; lia].
  exists l. split; [exact L|]. split; [reflexivity|]. split; [reflexivity|].
  pose proof (nth_error_In _ _ Q) as Il. specialize (Cl ls L). rewrite Forall_forall in Cl. specialize (Cl l Il). cbn beta in Cl.
  assert (Nl : match l with [] => d | _ => norm l end = l).
  { destruct l as [|z l]; [|exact Cl]. exfalso. unfold normalize, normalize_tag in Cl. destruct (base (make [])); discriminate. }
  destruct (page fmt norm s c dom l d R P Md) as (P1 & _ & P3). cbn zeta in P1, P3. rewrite Nl in P1, P3.
  assert (Ed : match dom with Some x => x | None => h_domain s (s_global s) end = h_domain s (s_global s)) by (destruct Dm as [-> | ->]; reflexivity).
  rewrite Ed in P3. split; [exact P1|].
  destruct P3 as [F|(N & F)].
  - split; [|left; exact F]. destruct F as (x & _ & U & _). exact U.
  - destruct (proj1 (C41_exact fmt norm s (s_global s) ls R Id L l) Il) as [Es|(t & Gt & Lt)].
    + split; [destruct F; congruence|]. right. auto.
    + exfalso. destruct (tr_get (the_tr s t) l) as [x|] eqn:X; [|contradiction]. apply (N x). exists t. auto.
Qed.
End Negotiated.
Print Assumptions C104_page. Print Assumptions C104_cookie. Print Assumptions C104_negotiated_partial.

(** ** a server: domain default in German, domain shop in Chinese *)
Definition sv_po (l : string) (str : string) : bytes :=
  B "msgid """"" ++ [NL] ++ B "msgstr ""Language: " ++ B l ++ B "\n""" ++ [NL] ++ [NL] ++
  B "msgid ""hi""" ++ [NL] ++ B "msgstr """ ++ B str ++ B """" ++ [NL].
Definition sv_walk (name : string) (content : bytes) : list event :=
  [EEntry false (B name) (Some {| ff_name := Some (B name); ff_content := Some content |})].
Definition sv : @state unit :=
  fold_left (do_op ex_fmt ex_norm) [OBind 0 (B "default") [] (sv_walk "de.po" (sv_po "de" "hallo")); OBind 0 (B "shop") [] (sv_walk "zh.po" (sv_po "zh-CN" "ni hao"))] (init (B "en_US")).
Lemma sv_on : reach_on ex_fmt ex_norm (of_tag ex_tag ex_base ex_region) sv.
Proof.
  unfold sv. cbn [fold_left]. repeat (apply RO_step; [|cbn; lia|exact I]). apply RO_init. exists En. reflexivity.
Qed.
Lemma sv_clean : reach_clean ex_fmt ex_norm sv.
Proof. unfold sv. cbn [fold_left]. repeat (apply RC_step; [|cbn; lia|intros []]). apply RC_init. Qed.
(** a matcher for a visitor who reads Chinese, else German *)
Definition sv_match (supported : list bytes) (accept : bytes) : nat :=
  match find (fun i => beq (nth i supported []) (B "zh_CN")) (seq 0 (length supported)) with
  | Some i => i
  | None => match find (fun i => beq (nth i supported []) (B "de_DE")) (seq 0 (length supported)) with Some i => i | None => 0 end
  end.
Lemma sv_range supported accept : supported <> [] -> sv_match supported accept < length supported.
Proof.
  intros N. unfold sv_match. destruct (find _ _) as [i|] eqn:E.
  - apply find_some in E as [E _]. apply in_seq in E. lia.
  - clear E. destruct (find _ _) as [i|] eqn:E; [|destruct supported; [contradiction|cbn; lia]]. apply find_some in E as [E _]. apply in_seq in E. lia.
Qed.
Lemma sv_locales : locales ex_norm sv 0 [B "de_DE"; B "en_US"].
Proof.
  exists [B "de_DE"]. split; [vm_compute; repeat constructor|]. split; [vm_compute; apply perm_swap|].
  cbn [sorted_strings]. repeat split; intros y; [intros [<-|[]]|intros []]. vm_compute. reflexivity.
Qed.
Lemma sv_lang : get_user_lang ex_norm sv_match sv (fun _ => None) (B "zh-CN,de") [] (Some (B "de_DE")).
Proof. exists [B "de_DE"; B "en_US"]. split; [exact sv_locales|reflexivity]. Qed.
(** the cases of the theorems: a visitor without a cookie, one with a cookie for
    a language nobody speaks, one who asks for Chinese in the shop *)
Example C104_case :
  (forall t, ex_base (ex_make (normalize_tag ex_tag ex_base ex_region t)) = ex_base t /\ ex_region (ex_make (normalize_tag ex_tag ex_base ex_region t)) = ex_region t)
  /\ (exists t, normalize_tag ex_tag ex_base ex_region t = B "en_US")
  /\ (forall supported accept, supported <> [] -> sv_match supported accept < length supported)
  /\ reach_on ex_fmt ex_norm (of_tag ex_tag ex_base ex_region) sv /\ reach_clean ex_fmt ex_norm sv
  /\ private CBackground /\ most_recent CBackground KDomain None /\ cookie_says (fun _ => None) [] None
  /\ get_user_lang ex_norm sv_match sv (fun _ => None) (B "zh-CN,de") [] (Some (B "de_DE"))
  /\ cookie_says (fun n => if beq n (B "l") then Some (B "fr") else None) [B "x"; B "l"] (Some (B "fr"))
  /\ (let p := with_context ex_norm sv (set_ctx_locale CBackground (B "de_DE")) (B "en_US") in h_x ex_fmt (snd p) (fst p) [] (B "hi") [] = B "hallo")
  /\ (let p := with_context ex_norm sv (set_ctx_locale CBackground (B "fr")) (B "en_US") in h_x ex_fmt (snd p) (fst p) [] (B "hi") [] = B "hi")
  /\ (let p := with_context ex_norm sv (set_ctx_locale (set_ctx_domain CBackground (B "shop")) (B "zh-CN")) (B "en_US") in
      h_x ex_fmt (snd p) (fst p) [] (B "hi") [] = B "ni hao" /\ used_locale (snd p) (fst p) = B "zh_CN").
Proof.
  split; [intros []; split; reflexivity|]. split; [exists En; reflexivity|]. split; [exact sv_range|]. split; [exact sv_on|].
  split; [exact sv_clean|]. split; [intros k v []|]. split; [intros v []|]. split; [left; split; reflexivity|].
  split; [exact sv_lang|]. split; [right; exists [B "x"], (B "l"); split; reflexivity|]. repeat split.
Qed.
(** GetUserLang negotiates among the languages of the global domain: a visitor
    who prefers Chinese and asks for a page of the shop, which is in Chinese, is
    told German, which the shop does not have, and gets the source texts *)
Theorem C104_domain_refuted : exists (s : @state unit) mtch accept c dom l,
  reach_on ex_fmt ex_norm (of_tag ex_tag ex_base ex_region) s /\ reach_clean ex_fmt ex_norm s
  /\ (forall supported accept, supported <> [] -> mtch supported accept < length supported)
  /\ private c /\ most_recent c KDomain (Some dom) /\ get_user_lang ex_norm mtch s (fun _ => None) accept [] (Some l)
  /\ let p := with_context ex_norm s (set_ctx_locale c l) (B "en_US") in
     used_locale (snd p) (fst p) <> l /\ source_text ex_fmt (snd p) (fst p)
     /\ (exists x ls, offers s (s_global s) dom (B "zh_CN") x
          /\ locales ex_norm (snd p) (fst p) ls /\ nth_error ls (mtch ls accept) = Some (B "zh_CN")).
Proof.
  exists sv, sv_match, (B "zh-CN,de"), (set_ctx_domain CBackground (B "shop")), (B "shop"), (B "de_DE").
  split; [exact sv_on|]. split; [exact sv_clean|]. split; [exact sv_range|].
  assert (Pr : private (set_ctx_domain CBackground (B "shop"))) by (intros k v [H|[]] _; injection H as <- <-; eauto).
  assert (Mr : most_recent (set_ctx_domain CBackground (B "shop")) KDomain (Some (B "shop"))) by (exists [], []; split; [reflexivity|intros v []]).
  split; [exact Pr|]. split; [exact Mr|]. split; [exact sv_lang|]. cbv zeta. split; [|split].
  - vm_compute. discriminate.
  - destruct (page ex_fmt ex_norm sv _ _ (B "de_DE") (B "en_US") sv_clean Pr Mr) as (_ & _ & [(x & (t & G & T) & _)|(_ & _ & X)]); [|exact X].
    exfalso. vm_compute in G. injection G as <-. vm_compute in T. discriminate.
  - exists (TFile 1), [B "en_US"; B "zh_CN"]. split; [exists 2; split; reflexivity|]. split; [|reflexivity].
    exists [B "zh_CN"]. split; [vm_compute; repeat constructor|]. split; [vm_compute; repeat constructor|].
    cbn [sorted_strings]. repeat split; intros y; [intros [<-|[]]|intros []]. vm_compute. reflexivity.
Qed.
Print Assumptions C104_domain_refuted.
