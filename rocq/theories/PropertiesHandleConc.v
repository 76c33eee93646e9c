(** Properties of handles that are used from several goroutines. *)
From Coq Require Import Lia Arith.
From Verif Require Import GoStr GoMap FileModel PoModel MoModel TransModel TransSpec TransFacts TransLoadFacts TransQuietFacts GlobalModel PropertiesConc
  HandleConcModel HandleConcSpec HandleConcFacts HandleCallFacts HandleRunFacts.
Local Open Scope nat_scope.

(** ** C80: requests that make their own handles *)
Lemma reach_built_wf A (fmt : bytes -> list A -> bytes) norm s : reach_built fmt norm s -> wf s.
Proof. induction 1 as [d|s o R IH K M]; [apply (wf_init norm d)|apply (wf_step norm fmt); assumption]. Qed.
(** goroutines, each with some handles of its own (none is given to two of them),
    make handles (Global, WithContext, L, D, NewTranslations), load into and change
    the handles they have or made, and ask and translate through those and the
    handles nobody has: however they interleave, each one that has finished has
    got the answers it gets when nothing else is going on; no two of them race;
    and nothing that belongs to none of them has changed *)
Theorem C80_requests : forall A (fmt : bytes -> list A -> bytes) norm s gs s' ps,
  reach_built fmt norm s -> requests s gs ->
  gsteps norm (s, map (fun g => run_request fmt norm (fst g) [] (snd g)) gs) (s', ps) ->
  (forall j own qs rs, nth_error gs j = Some (own, qs) -> nth_error ps j = Some (GRet rs) -> rs = by_itself fmt norm s own qs)
  /\ ~ handle_race ps
  /\ (forall h, h < length (s_ts s) -> ~ In h (concat (map fst gs)) -> the_ts s' h = the_ts s h /\ h_domains s' h = h_domains s h)
  /\ s_global s' = s_global s
  /\ (forall t, t < length (s_trs s) -> the_tr s' t = the_tr s t) /\ (forall a, a < length (s_files s) -> the_file s' a = the_file s a).
Proof.
  intros A fmt norm s gs s' ps R P St. pose proof (reach_built_wf _ _ _ _ R) as W.
  pose proof (requests_fine fmt norm s gs _ W (reach_built_calm _ _ _ _ R) P St) as F. cbn [fst snd] in F.
  split; [|split; [apply (fine_no_race _ _ _ _ _ _ F)|]].
  - intros j own qs rs Eq Ep. destruct F as (_ & Lf & ow & om & _ & F). specialize (F j _ (by_itself fmt norm s own qs) Ep).
    rewrite nth_error_map, Eq in F. exact (F eq_refl).
  - destruct F as (_ & Lf & ow & om & I & _).
    split; [|split; [apply (i_global _ _ _ _ _ _ I)|split; [apply (i_trs _ _ _ _ _ _ I)|apply (i_files _ _ _ _ _ _ I)]]].
    intros h H Nh. destruct (frz_shared s W _ (proj1 (proj2 P)) h H Nh) as [F1 F2]. unfold h_domains. rewrite (i_ts _ _ _ _ _ _ I h F1).
    split; [reflexivity|]. apply (i_maps _ _ _ _ _ _ I), F2.
Qed.
Print Assumptions C80_requests.
(** a goroutine that runs alone, whatever it calls, can finish with the answers
    of the sequential model *)
Theorem C80_alone : forall A (fmt : bytes -> list A -> bytes) norm s own qs, reach_built fmt norm s ->
  exists s', gsteps norm (s, [run_request fmt norm own [] qs]) (s', [GRet (by_itself fmt norm s own qs)]).
Proof.
  intros A fmt norm s own qs R. destruct (run_alone fmt norm qs s own [] (reach_built_wf _ _ _ _ R)) as (s' & H).
  exists s'. apply runs_steps, H.
Qed.
Print Assumptions C80_alone.
(** the answers are what Domains, Locales, MostMatchLocale and GetUserLang give: the
    caller sees of them exactly what these functions return on the state *)
Theorem C80_shown : forall A (fmt : bytes -> list A -> bytes) norm s own,
  (forall h out, domains s (target s own h) out <-> shown_domains (fst (fst (one fmt norm s own (QDomains h)))) out)
  /\ (forall h out, locales norm s (target s own h) out <-> shown_locales norm (fst (fst (one fmt norm s own (QLocales h)))) out)
  /\ (forall h mtch out, most_match_locale norm mtch s (target s own h) out <-> shown_most norm mtch (fst (fst (one fmt norm s own (QMost h)))) out)
  /\ (forall mtch_http cookie accept opts out, get_user_lang norm mtch_http s cookie accept opts out
        <-> shown_user_lang norm mtch_http accept (fst (fst (one fmt norm s own (QUserLang (cookie (last opts (B "lang"))))))) out).
Proof.
  intros A fmt norm s own.
  assert (L : forall h out, locales norm s h out <-> shown_locales norm (ALangs (h_source s h) (langs_of s h)) out).
  { intros h out. cbn [shown_locales]. split; [apply locales_spec|]. intros [I E]. destruct (locales_exist norm s h) as (o & Lo).
    destruct (locales_spec norm s h o Lo) as [I' E']. assert (out = o) as ->; [|exact Lo]. apply increasing_unique; [exact I|exact I'|].
    intros x. rewrite E, E'. reflexivity. }
  split; [intros h out; reflexivity|]. split; [intros h out; apply L|]. split.
  - intros h mtch out. unfold most_match_locale. cbn [one fst shown_most].
    split; intros (ls & H & ->); exists ls; (split; [apply (L (s_global s) ls), H|reflexivity]).
  - intros mtch_http cookie accept opts out. unfold get_user_lang. cbv zeta.
    assert (E : fold_left (fun _ o : bytes => o) opts (B "lang") = last opts (B "lang")).
    { generalize (B "lang"). induction opts as [|o opts IH]; intros d; [reflexivity|]. cbn [fold_left]. rewrite IH.
      destruct opts as [|o' opts]; [reflexivity|]. change (last (o :: o' :: opts) d) with (last (o' :: opts) d).
      clear. revert o'. induction opts as [|x opts IH]; intros o'; [reflexivity|]. exact (IH x). }
    rewrite E. destruct (cookie (last opts (B "lang"))) as [v|]; cbn [one fst shown_user_lang]; [reflexivity|].
    split; intros (ls & H & ->); exists ls; (split; [apply (L (s_global s) ls), H|reflexivity]).
Qed.
Print Assumptions C80_shown.
(** No goroutine ever waits, and no schedule goes on for ever: whatever they do, all requests
    are answered in the end. *)
Section Finish.
Context {A R : Type}.
Variable norm : bytes -> bytes.
Notation prog := (@gprog A R).
Inductive onward : state * list prog -> state * list prog -> Prop :=
| OW s a p b s' p' : gstep norm s p = Some (s', p') -> onward (s', a ++ p' :: b) (s, a ++ p :: b).
Definition child (p' p : prog) : Prop := exists s s', gstep norm s p = Some (s', p').
Lemma child_acc p : Acc child p.
Proof.
  induction p as [r|q k IH|q f k IH|r k IH|g k IH|d wm wp k IH]; constructor; intros p' (s & s' & H); cbn [gstep] in H.
  - discriminate.
  - injection H as _ <-. apply IH.
  - injection H as _ <-. exact IH.
  - destruct (new_ts s r). injection H as _ <-. apply IH.
  - destruct (new_map s g). injection H as _ <-. apply IH.
  - destruct (new_translation s d). destruct (load_fs norm s0 n wm wp). injection H as _ <-. apply IH.
Qed.
Inductive one : list prog -> list prog -> Prop := ONE a p b p' : child p' p -> one (a ++ p' :: b) (a ++ p :: b).
Lemma one_acc ps : Acc one ps.
Proof.
  induction ps as [|p ps IH].
  - constructor. intros y H. inversion H as [a q b q' C E1 E2]. destruct a; discriminate.
  - revert p. induction IH as [ps Hps IHps]. intros p. induction (child_acc p) as [p Hp IHp]. constructor. intros y H.
    inversion H as [a q b q' C E1 E2]; subst. destruct a as [|x a]; cbn [app] in E2; injection E2 as -> E2.
    + subst b. apply IHp, C.
    + cbn [app]. apply IHps. rewrite <- E2. constructor. exact C.
Qed.
Lemma onward_acc c : Acc onward c.
Proof.
  destruct c as [s ps]. revert s. induction (one_acc ps) as [ps H IH]. intros s. constructor. intros c' O. inversion O as [s0 a p b s' p' St E1 E2]; subst.
  apply IH. constructor. exists s, s'. exact St.
Qed.
Theorem C80_finishes :
  (forall (s : state) (p : prog), (exists rs, p = GRet rs) \/ exists s' p', gstep norm s p = Some (s', p'))
  /\ (forall run : nat -> state * list prog, ~ forall i, onward (run (S i)) (run i)).
Proof.
  split.
  - intros s [r|q k|q f k|r k|g k|d wm wp k]; [left; exists r; reflexivity|right; cbn [gstep]..].
    + eexists _, _. reflexivity.
    + eexists _, _. reflexivity.
    + destruct (new_ts s r). eexists _, _. reflexivity.
    + destruct (new_map s g). eexists _, _. reflexivity.
    + destruct (new_translation s d). destruct (load_fs norm s0 n wm wp). eexists _, _. reflexivity.
  - intros run H. assert (Q : forall c, Acc onward c -> forall i, run i <> c).
    { induction 1 as [c _ IH]. intros i E. exact (IH (run (S i)) (eq_ind _ (fun x => onward (run (S i)) x) (H i) _ E) (S i) eq_refl). }
    exact (Q _ (onward_acc (run 0)) 0 eq_refl).
Qed.
End Finish.
Print Assumptions C80_finishes.
(** two requests, interleaved: one for a German visitor, one that changes its own
    handle *)
Definition visitor : list (@rcall nat) :=
  [QWith (set_ctx_locale CBackground (B "de")) (B "en"); QXN (HOwn 0) [] (B "one") (B "many") 5 []; QL (HOwn 0) (B "fr") (B "en");
   QXN (HOwn 1) [] (B "one") (B "many") 5 []; QUsed (HOwn 0); QLocale HGlob; QUserLang None; QMost (HOwn 1); QDomains (HOwn 0); QLocales (HOwn 1)].
Definition changer : list (@rcall nat) :=
  [QGlobal; QSetLocale (HOwn 0) (B "fr") (B "en"); QXN (HOwn 0) [] (B "one") (B "many") 5 []; QSetLocale (HOwn 0) (B "de") (B "en");
   QXN (HOwn 0) [] (B "one") (B "many") 5 []; QClear (HOwn 0); QX (HOwn 0) [] (B "one") []; QHas HGlob (B "default")].
Definition both (n m : nat) : list nat := concat (repeat [0; 1] n) ++ repeat 0 m.
Example C80_example : exists s',
  reach_built (fun s _ => s) (fun l => l) de_state /\ requests de_state [([], visitor); ([], changer)]
  /\ gsteps (fun l => l) (de_state, map (fun g => run_request (fun s _ => s) (fun l => l) (fst g) [] (snd g)) [([], visitor); ([], changer)])
       (s', [GRet [ANone; AText (B "viele"); ANone; AText (B "many"); AText (B "de"); AText (B "de");
              ALangs (B "en_US") [B "de"]; AMatched (B "en_US") [B "de"] (B "de"); ANames [B "default"]; ALangs (B "en_US") [B "de"]];
             GRet [ANone; ANone; AText (B "many"); ANone; AText (B "viele"); ANone; AText (B "one"); ABool true]]).
Proof.
  eexists. split; [apply C71_example|]. split.
  { split; [constructor|]. split; [constructor|]. constructor; [|constructor; [|constructor]];
      cbn [visitor changer request polite makes fst snd length map concat app]; repeat split; unfold asks; cbn [mine In]; auto; lia. }
  apply (gsched_steps _ (both 34 32) _ _ _ (GS_refl _ _)). vm_compute. reflexivity.
Qed.

(** ** C81: changing a handle others are using *)
(** the access a goroutine is about to make; [true]: it writes *)
Definition next {A R} (p : @gprog A R) : option (bool * place) :=
  match p with Wr x _ _ => Some (true, x) | Rd x _ => Some (false, x) | _ => None end.
Lemma next_race A R (ps : list (@gprog A R)) x b : map next ps = [Some (true, x); Some (b, x)] -> handle_race ps.
Proof.
  intros E. destruct ps as [|p [|q [|]]]; try discriminate. injection E as E1 E2. exists 0, 1, p, q, x.
  split; [discriminate|]. split; [reflexivity|]. split; [reflexivity|]. split.
  - destruct p; try discriminate. injection E1 as <-. reflexivity.
  - destruct q; try discriminate; injection E2 as _ <-; reflexivity.
Qed.
(** loading a catalog into the global handle while another goroutine translates
    through it: both are about to access the same Go map, one of them writing *)
Definition loader : list (@rcall nat) := [QBind HGlob (B "default") [] de_walk].
Definition teller : list (@rcall nat) := [QX HGlob [] (B "one") []].
Theorem C81_load_refuted : exists s s' (ps : list (@gprog nat (list ans))),
  reach_built (fun s _ => s) (fun l => l) s
  /\ gsteps (fun l => l) (s, map (run_request (fun s _ => s) (fun l => l) [] []) [loader; teller]) (s', ps)
  /\ handle_race ps.
Proof.
  exists de_state. pose (c := gsched (fun l => l) [0; 0; 0; 1; 1; 1] (de_state, map (run_request (fun s _ => s) (fun l => l) [] []) [loader; teller])).
  assert (Q : match c with Some (_, ps) => map next ps | None => [] end = [Some (true, PMap 0); Some (false, PMap 0)]) by (vm_compute; reflexivity).
  destruct c as [[s' ps]|] eqn:Ec; [|discriminate]. exists s', ps. split; [apply C71_example|].
  split; [apply (gsched_steps _ [0; 0; 0; 1; 1; 1] _ _ _ (GS_refl _ _) Ec)|]. apply (next_race _ _ _ _ _ Q).
Qed.
Print Assumptions C81_load_refuted.
(** a translation may combine the domain of before with the locale of after: an
    answer that the handle gives neither before, nor between, nor after the two
    calls of the other goroutine *)
Definition one_po (lang text : bytes) : list event :=
  [EEntry false (B "x.po") (Some {| ff_name := Some (B "x.po");
     ff_content := Some (B "msgid """"" ++ NL :: B "msgstr ""Language: " ++ lang ++ B "\n""" ++ NL :: NL :: B "msgid ""one""" ++ NL :: B "msgstr """ ++ text ++ B """" ++ [NL]) |})].
Definition two_state : @state nat :=
  fold_left (do_op (fun s _ => s) (fun l => l))
    [OBind 0 (B "default") [] (one_po (B "de") (B "eins") ++ one_po (B "fr") (B "un"));
     OBind 0 (B "shop") [] (one_po (B "de") (B "ein") ++ one_po (B "fr") (B "une")); OSetLocale 0 (B "de") (B "en")] (init (B "en")).
Definition switcher : list (@rcall nat) := [QSetDomain HGlob (B "shop"); QSetLocale HGlob (B "fr") (B "en")].
Theorem C81_mixed_refuted : exists s s' rs t,
  reach_built (fun s _ => s) (fun l => l) s
  /\ gsteps (fun l => l) (s, map (run_request (fun s _ => s) (fun l => l) [] []) [switcher; teller]) (s', [GRet rs; GRet [AText t]])
  /\ forall n, last (by_itself (fun s _ => s) (fun l => l) s [] (firstn n switcher ++ teller)) ANone <> AText t.
Proof.
  exists two_state. eexists _, _, (B "un"). split.
  { unfold two_state. cbn [fold_left]. apply RB_step; [apply RB_step; [apply RB_step; [constructor|cbn; lia|discriminate]|..]|..]; try discriminate;
      apply Nat.ltb_lt; vm_compute; reflexivity. }
  split; [apply (gsched_steps _ [1; 1; 0; 0; 0; 0; 1; 1; 1; 1; 1] _ _ _ (GS_refl _ _)); vm_compute; reflexivity|].
  intros [|[|[|n]]]; [vm_compute; discriminate..|]. vm_compute. discriminate.
Qed.
Print Assumptions C81_mixed_refuted.
(** what can be kept: when one goroutine alone uses the global handle, for
    anything it likes (loading, clearing, changing, translating), and the others
    hold handles made before, the others get the answers of the handles they hold
    as if the first one were not there.  Missing: goroutines that use the global
    handle itself meanwhile, see above *)
Definition about_global {A} (n : nat) (q : @rcall A) : Prop :=
  match q with
  | QNew _ | QGlobal | QWith _ _ => True
  | QUserLang _ | QMost _ => True
  | QD h _ | QL h _ _ | QHas h _ | QDomain h | QLocale h | QSource h | QUsed h | QDomains h | QLocales h | QX h _ _ _ | QXN h _ _ _ _ _
  | QSetDomain h _ | QSetLocale h _ _ | QSetSource h _ | QBind h _ _ _ | QRemove h _ | QClear h =>
      match h with HGlob => True | HShared _ => False | HOwn i => i < n end
  end.
Fixpoint admin {A} (n : nat) (qs : list (@rcall A)) : Prop :=
  match qs with [] => True | q :: qs => about_global n q /\ admin (n + makes q) qs end.
Definition held {A} (s : @state A) (q : @rcall A) : Prop :=
  match q with
  | QHas h _ | QDomain h | QLocale h | QSource h | QUsed h | QDomains h | QLocales h | QX h _ _ _ | QXN h _ _ _ _ _ =>
      match h with HShared a => a < length (s_ts s) /\ a <> s_global s | _ => False end
  | _ => False
  end.
Lemma request_admin A (s : @state A) qs : forall n, 0 < n -> admin n qs -> request s [s_global s] [s_global s] n qs.
Proof.
  induction qs as [|q qs IH]; intros n Hn P; cbn [request admin] in *; [exact I|]. destruct P as [P1 P2]. split; [|apply IH; [lia|exact P2]].
  destruct q; cbn [polite about_global] in *; try exact I; try (left; left; reflexivity); try (destruct cookie; [exact I|left; left; reflexivity]);
    try (left; destruct h; cbn [mine]; [left; reflexivity|contradiction|exact P1]);
    try (destruct h; cbn [mine]; [left; reflexivity|contradiction|exact P1]).
Qed.
Lemma request_held A (s : @state A) qs : Forall (held s) qs -> forall n, request s [s_global s] [] n qs.
Proof.
  induction 1 as [|q qs P F IH]; intros n; cbn [request]; [exact I|]. split; [|apply IH].
  destruct q; cbn [polite held] in *; try contradiction; destruct h; try contradiction; destruct P as [P1 P2]; right;
    (split; [exact P1|intros [E|[]]; congruence]).
Qed.
Theorem C81_held_partial : forall A (fmt : bytes -> list A -> bytes) norm s boss qss s' p ps,
  reach_built fmt norm s -> admin 1 boss -> Forall (Forall (held s)) qss ->
  gsteps norm (s, run_request fmt norm [s_global s] [] boss :: map (run_request fmt norm [] []) qss) (s', p :: ps) ->
  ~ handle_race (p :: ps)
  /\ (forall j qs rs, nth_error qss j = Some qs -> nth_error ps j = Some (GRet rs) -> rs = by_itself fmt norm s [] qs)
  /\ (forall rs, p = GRet rs -> rs = by_itself fmt norm s [s_global s] boss).
Proof.
  intros A fmt norm s boss qss s' p ps R Pb Pq St.
  pose (gs := ([s_global s], boss) :: map (fun qs => (@nil nat, qs)) qss).
  assert (Ec : concat (map fst gs) = [s_global s]).
  { unfold gs. cbn [map concat fst app]. f_equal. clear. induction qss as [|q qss IH]; [reflexivity|exact IH]. }
  assert (P : requests s gs).
  { unfold requests. rewrite Ec. split; [repeat constructor; intros []|]. split; [constructor; [apply (w_global _ (reach_built_wf _ _ _ _ R))|constructor]|].
    constructor; [apply request_admin; [cbn [fst length]; lia|exact Pb]|]. apply Forall_forall. intros g Ig. apply in_map_iff in Ig as (qs & <- & Iq).
    rewrite Forall_forall in Pq. apply request_held, Pq, Iq. }
  assert (St' : gsteps norm (s, map (fun g => run_request fmt norm (fst g) [] (snd g)) gs) (s', p :: ps)).
  { unfold gs. cbn [map fst snd]. rewrite map_map. exact St. }
  destruct (C80_requests A fmt norm s gs s' (p :: ps) R P St') as (K1 & K2 & _). split; [exact K2|]. split.
  - intros j qs rs Eq Ep. apply (K1 (S j) [] qs rs); [|exact Ep]. unfold gs. cbn [nth_error]. rewrite nth_error_map, Eq. reflexivity.
  - intros rs ->. apply (K1 0 [s_global s] boss rs); reflexivity.
Qed.
Print Assumptions C81_held_partial.
(** the global handle is reloaded with a French catalog and cleared while the
    holder of an older copy keeps reading German *)
Definition boss : list (@rcall nat) :=
  [QBind HGlob (B "default") [] (one_po (B "fr") (B "un")); QSetLocale HGlob (B "fr") (B "en"); QX HGlob [] (B "one") []; QClear HGlob; QX HGlob [] (B "one") []].
Definition holder : list (@rcall nat) := [QX (HShared 1) [] (B "one") []; QUsed (HShared 1); QX (HShared 1) [] (B "one") []].
Definition held_state : @state nat := fold_left (do_op (fun s _ => s) (fun l => l)) [OGlobal] two_state.
Example C81_held_example : exists s',
  reach_built (fun s _ => s) (fun l => l) held_state /\ admin 1 boss /\ Forall (Forall (held held_state)) [holder]
  /\ gsteps (fun l => l) (held_state, run_request (fun s _ => s) (fun l => l) [s_global held_state] [] boss
                                     :: map (run_request (fun s _ => s) (fun l => l) [] []) [holder])
       (s', [GRet [ANone; ANone; AText (B "un"); ANone; AText (B "one")]; GRet [AText (B "eins"); AText (B "de"); AText (B "eins")]]).
Proof.
  eexists. split.
  { unfold held_state, two_state. cbn [fold_left]. apply RB_step; [apply RB_step; [apply RB_step; [apply RB_step; [constructor|cbn; lia|discriminate]|..]|..]|..]; try discriminate; try exact I;
      apply Nat.ltb_lt; vm_compute; reflexivity. }
  split; [repeat split|]. split; [repeat constructor; try (apply Nat.ltb_lt; vm_compute; reflexivity); vm_compute; discriminate|].
  apply (gsched_steps _ (both 18 5) _ _ _ (GS_refl _ _)). vm_compute. reflexivity.
Qed.
