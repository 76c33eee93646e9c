(** C107: contexts of any kind, nil contexts and nil requests. *)
From Coq Require Import Lia.
From Verif Require Import GoStr GoStrFacts GoMap GoMapFacts FileModel FileFacts PoModel MoModel TransModel TransSpec TransFacts TransFrameFacts TransViewFacts
  TransLoadFacts CtxModel CtxSpec CtxFacts PropertiesTrans.
Import ListNotations.

(** setting: panics for a nil context, else the key set is told and the others are as before *)
Theorem C107_set : forall c l,
  (set_locale_x c l = None <-> c = XNil) /\ (set_domain_x c l = None <-> c = XNil)
  /\ (forall c', set_locale_x c l = Some c' -> answer c' KLang (TValue (VString l)) /\ forall k r, k <> KLang -> (answer c' k r <-> answer c k r))
  /\ (forall c', set_domain_x c l = Some c' -> answer c' KDomain (TValue (VString l)) /\ forall k r, k <> KDomain -> (answer c' k r <-> answer c k r)).
Proof.
  intros c l. unfold set_locale_x, set_domain_x, with_value.
  assert (P : forall k0 c', match c with XNil => None | _ => Some (XValue c k0 (VString l)) end = Some c' ->
    answer c' k0 (TValue (VString l)) /\ forall k r, k <> k0 -> (answer c' k r <-> answer c k r)).
  { intros k0 c' E. assert (E' : c' = XValue c k0 (VString l)) by (destruct c; congruence). subst c'. split.
    - apply answer_iff. cbn [xvalue]. rewrite (proj2 (key_eqb k0 k0) eq_refl). reflexivity.
    - intros k r N. rewrite !answer_iff. cbn [xvalue]. destruct (ckey_eqb k k0) eqn:Ek; [apply key_eqb in Ek; contradiction|reflexivity]. }
  split; [destruct c; split; congruence|]. split; [destruct c; split; congruence|]. split; intros c'; apply P.
Qed.
(** asking: panics if the context does, else the string that is told, if it is one *)
Theorem C107_get : forall c, 
  (get_locale_x c = None <-> answer c KLang TPanic) /\ (get_domain_x c = None <-> answer c KDomain TPanic)
  /\ (forall o, get_locale_x c = Some o <-> exists r, answer c KLang r /\ names r o)
  /\ (forall o, get_domain_x c = Some o <-> exists r, answer c KDomain r /\ names r o).
Proof.
  intros c. unfold get_locale_x, get_domain_x. rewrite !answer_iff.
  assert (P : forall r, string_of r = None <-> r = TPanic) by (intros [[]| |]; cbn; split; congruence).
  assert (Q : forall k o, string_of (xvalue c k) = Some o <-> exists r, answer c k r /\ names r o).
  { intros k o. split; [intros E; exists (xvalue c k); split; [apply answer_value|apply names_string, E]|].
    intros (r & E & N). apply answer_iff in E as ->. apply names_string, N. }
  split; [apply P|]. split; [apply P|]. split; intros o; apply Q.
Qed.
(** a nil context, and a struct that embeds one, panics for every key *)
Theorem C107_nil : forall k r, (answer XNil k r <-> r = TPanic) /\ (answer (XWrap XNil) k r <-> r = TPanic).
Proof. intros k r. rewrite !answer_iff. cbn [xvalue]. split; split; congruence. Qed.

Section Props.
Context {A : Type}.
Variable fmt : bytes -> list A -> bytes.
Variable norm : bytes -> bytes.
Notation state := (@state A).

(** WithContext with any context: it panics exactly if asking it for the language or the domain does; otherwise
    the handle is the global one with the language and the domain that are told, and the global one stays *)
Theorem C107_with : forall (s : state) c d r1 r2, reach fmt norm s -> answer c KLang r1 -> answer c KDomain r2 ->
  let g := s_global s in let s' := snd (with_context_x norm s c d) in
  (fst (with_context_x norm s c d) = None <-> r1 = TPanic \/ r2 = TPanic)
  /\ (forall lo dom, names r1 lo -> names r2 dom -> exists h', fst (with_context_x norm s c d) = Some h'
        /\ same_view fmt norm (retarget s g (match dom with Some x => x | None => h_domain s g end)
                                            (match lo with Some [] => d | Some l => norm l | None => h_locale s g end)) g s' h'
        /\ forall h0, h0 < length (s_ts s) -> h' <> h0)
  /\ s_global s' = g /\ forall h, h < length (s_ts s) -> same_view fmt norm s h s' h.
Proof.
  intros s c d r1 r2 R A1 A2. cbn zeta. apply answer_iff in A1. apply answer_iff in A2. pose proof (reach_wf norm fmt s R) as W.
  assert (V : forall c' h, h < length (s_ts s) -> same_view fmt norm s h (snd (with_context norm s c' d)) h).
  { intros c' h H. destruct (with_frame fmt norm s c' d h W H). apply same_view_of; assumption. }
  assert (Gl : forall c', s_global (snd (with_context norm s c' d)) = s_global s).
  { intros c'. unfold with_context, g_clone, h_L, h_D. destruct (clone s (s_global s)) as [h1 s1] eqn:E1.
    assert (G1 : s_global s1 = s_global s) by (rewrite clone_eq in E1; injection E1 as <- <-; reflexivity). rewrite <- G1.
    destruct (get_ctx_locale c') as [l|].
    - destruct (clone s1 h1) as [h2 s2] eqn:E2. assert (G2 : s_global s2 = s_global s1) by (rewrite clone_eq in E2; injection E2 as <- <-; reflexivity).
      destruct (get_ctx_domain c') as [x|]; [|exact G2]. destruct (clone _ h2) as [h3 s3] eqn:E3. rewrite clone_eq in E3. injection E3 as <- <-. exact G2.
    - destruct (get_ctx_domain c') as [x|]; [|reflexivity]. destruct (clone s1 h1) as [h3 s3] eqn:E3. rewrite clone_eq in E3. injection E3 as <- <-. reflexivity. }
  assert (D : get_locale_x c = string_of r1) by (unfold get_locale_x; rewrite A1; reflexivity).
  assert (D2 : get_domain_x c = string_of r2) by (unfold get_domain_x; rewrite A2; reflexivity).
  destruct (string_of r1) as [lo|] eqn:S1; [destruct (string_of r2) as [dom|] eqn:S2|].
  - rewrite (with_plain norm s c d lo dom D D2). cbn [fst snd]. split; [|split; [|split; [apply Gl|apply V]]].
    + split; [discriminate|]. intros [->| ->]; discriminate.
    + intros lo' dom' N1 N2. apply names_string in N1. apply names_string in N2. rewrite S1 in N1. rewrite S2 in N2. injection N1 as <-. injection N2 as <-.
      destruct (plain_ok lo dom) as (Pp & Ml & Md). destruct (C45_with_context fmt norm s (plain lo dom) d lo dom R Pp Ml Md) as (V1 & _ & V3). eauto.
  - assert (E : with_context_x norm s c d = (None, snd (with_context norm s (plain lo None) d))).
    { unfold with_context_x, with_context. destruct (plain_get lo None) as [-> ->]. rewrite D, D2. destruct (g_clone s) as [h1 s1]. destruct lo as [l|]; [destruct (h_L norm s1 h1 l d)|]; reflexivity. }
    rewrite E. cbn [fst snd]. split; [|split; [|split; [apply Gl|apply V]]].
    + split; [|reflexivity]. intros _. right. destruct r2 as [[]| |]; try discriminate S2. reflexivity.
    + intros lo' dom' N1 N2. apply names_string in N2. congruence.
  - assert (E : with_context_x norm s c d = (None, snd (with_context norm s CBackground d))).
    { unfold with_context_x, with_context. rewrite D. cbn [get_ctx_locale get_ctx_domain cvalue as_string]. destruct (g_clone s). reflexivity. }
    rewrite E. cbn [fst snd]. split; [|split; [|split; [apply Gl|apply V]]].
    + split; [|reflexivity]. intros _. left. destruct r1 as [[]| |]; try discriminate S1. reflexivity.
    + intros lo' dom' N1 N2. apply names_string in N1. congruence.
Qed.
(** contexts of the standard library and this package only: as in C45 *)
Theorem C107_agrees : forall (s : state) c d,
  with_context_x norm s (embed c) d = (Some (fst (with_context norm s c d)), snd (with_context norm s c d)).
Proof.
  intros s c d. assert (E : forall k, xvalue (embed c) k = match cvalue c k with Some v => TValue v | None => TNil end).
  { intros k. induction c as [|c IH k' v|c IH]; cbn [embed xvalue cvalue]; auto. destruct (ckey_eqb k k'); auto. }
  assert (E' : forall k, string_of (xvalue (embed c) k) = Some (as_string (cvalue c k))) by (intros k; rewrite E; destruct (cvalue c k) as [[]|]; reflexivity).
  unfold with_context_x, with_context, get_locale_x, get_domain_x, get_ctx_locale, get_ctx_domain. rewrite !E'. destruct (g_clone s) as [h1 s1].
  destruct (as_string (cvalue c KLang)) as [l|]; [destruct (h_L norm s1 h1 l d) as [h2 s2]|]; destruct (as_string (cvalue c KDomain)) as [x|]; try reflexivity;
    destruct (h_D _ _ _); reflexivity.
Qed.
(** GetUserLang panics exactly for a nil option, a nil request, or if the matcher chooses beyond the languages
    (C47: it does not); otherwise it is the call of C47 *)
Theorem C107_request : forall mtch (s : state) req opts out, user_lang_x norm mtch s req opts out ->
  (In None opts \/ req = None -> out = LangPanic)
  /\ (forall r names, req = Some r -> opts = map Some names ->
        get_user_lang norm mtch s (r_cookie r) (r_accept r) names (match out with LangOk l => Some l | LangPanic => None end))
  /\ ((forall ls acc, ls <> [] -> mtch ls acc < length ls) -> out = LangPanic -> In None opts \/ req = None).
Proof.
  intros mtch s req opts out U. unfold user_lang_x in U.
  assert (C : forall n, cookie_name n opts = None <-> In None opts).
  { clear U. induction opts as [|[o|] opts IH]; intros n; cbn [cookie_name In]; [split; [discriminate|intros []]| |split; auto].
    rewrite IH. split; [auto|]. intros [E|E]; [discriminate E|exact E]. }
  split; [|split].
  - intros [Q|Q]; [rewrite (proj2 (C _) Q) in U; exact U|]. subst req. destruct (cookie_name _ opts); exact U.
  - intros r names -> ->. assert (E : forall n, cookie_name n (map Some names) = Some (fold_left (fun _ o => o) names n)).
    { clear. induction names as [|x names IH]; intros n; cbn [map cookie_name fold_left]; [reflexivity|apply IH]. }
    rewrite E in U. unfold get_user_lang. cbn zeta. destruct (r_cookie r _) as [v|]; [subst out; reflexivity|].
    destruct U as (ls & L & ->). exists ls. split; [exact L|]. destruct (nth_error ls _); reflexivity.
  - intros M ->. destruct (cookie_name (B "lang") opts) as [n|] eqn:E; [|left; apply (C (B "lang")), E]. destruct req as [r|]; [|auto].
    destruct (r_cookie r n); [discriminate U|]. destruct U as (ls & L & U). exfalso.
    destruct (C41_locales norm s (s_global s) ls L) as (N & _).
    specialize (M ls (r_accept r) N). apply nth_error_Some in M. destruct (nth_error ls _); [discriminate U|contradiction].
Qed.
End Props.

(** ** Examples *)
(** a context of another package that panics for the domain and gives a number for the language *)
Definition ex_foreign : xctx := XForeign (fun k => match k with KLang => TValue (VOther 3) | KDomain => TPanic | KOther _ => TNil end).
Definition ex_layered : xctx := XValue (XWrap (XValue ex_foreign KLang (VString (B "zh")))) (KOther 1) (VOther 2).
Example C107_case : answer ex_layered KLang (TValue (VString (B "zh"))) /\ answer ex_layered KDomain TPanic
  /\ answer ex_foreign KLang (TValue (VOther 3)) /\ names (TValue (VOther 3)) None
  /\ reach ex_fmt ex_norm ex1
  /\ fst (with_context_x ex_norm ex1 ex_layered (B "en")) = None
  /\ fst (with_context_x ex_norm ex1 XNil (B "en")) = None
  /\ (forall c, set_domain_x ex_layered (B "default") = Some c ->
        match with_context_x ex_norm ex1 c (B "en") with (Some h, s) => h_x ex_fmt s h [] (B "hi") [] = B "ni hao" | _ => False end).
Proof.
  split; [apply answer_iff; reflexivity|]. split; [apply answer_iff; reflexivity|]. split; [apply answer_iff; reflexivity|].
  split; [right; exists 3; reflexivity|]. split; [apply (reach_clean_reach ex_fmt ex_norm), ex1_reach|]. split; [reflexivity|]. split; [reflexivity|].
  intros c E. injection E as <-. vm_compute. reflexivity.
Qed.
Definition ex_req : request := {| r_cookie := fun n => if beq n (B "l") then Some (B "zh") else None; r_accept := B "de" |}.
Example C107_request_case :
  user_lang_x ex_norm (fun _ _ => 0) ex1 (Some ex_req) (map Some [B "x"; B "l"]) (LangOk (B "zh"))
  /\ user_lang_x ex_norm (fun _ _ => 0) ex1 None [] LangPanic
  /\ user_lang_x ex_norm (fun _ _ => 0) ex1 (Some ex_req) [Some (B "l"); None] LangPanic.
Proof. repeat split. Qed.
(** not only SetCtxLocale sets the language: a context of another package that has a string for every key is believed *)
Theorem C107_only_set_refuted : exists c sets f (s : @state unit), layers c sets (XForeign f) /\ sets = [] /\ reach ex_fmt ex_norm s
  /\ match with_context_x ex_norm s c (B "en") with (Some h, s') => h_locale s' h <> h_locale s (s_global s) | _ => False end.
Proof.
  exists (XForeign (fun _ => TValue (VString (B "me")))), [], (fun _ => TValue (VString (B "me"))), ex1. split; [constructor|]. split; [reflexivity|].
  split; [apply (reach_clean_reach ex_fmt ex_norm), ex1_reach|]. vm_compute. discriminate.
Qed.
Print Assumptions C107_set.
Print Assumptions C107_get.
Print Assumptions C107_nil.
Print Assumptions C107_with.
Print Assumptions C107_agrees.
Print Assumptions C107_request.
Print Assumptions C107_only_set_refuted.
