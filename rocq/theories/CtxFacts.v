(** Facts about contexts of any kind. *)
From Coq Require Import Lia.
From Verif Require Import GoStr GoStrFacts GoMap GoMapFacts TransModel TransSpec CtxModel CtxSpec.
Import ListNotations.

Lemma key_eqb (a b : ckey) : ckey_eqb a b = true <-> a = b.
Proof. destruct a, b; cbn [ckey_eqb]; try (split; congruence). rewrite Nat.eqb_eq. split; congruence. Qed.
Lemma layers_total c : exists sets base, layers c sets base.
Proof.
  induction c as [|f|c (sets & base & IH) k v|c (sets & base & IH)]; [exists [], XNil; constructor|exists [], (XForeign f); constructor|
    exists ((k, v) :: sets), base; constructor; exact IH|exists sets, base; constructor; exact IH].
Qed.
Lemma answer_value c k : answer c k (xvalue c k).
Proof.
  induction c as [|f|c (sets & base & L & Q) k' v|c (sets & base & L & Q)]; cbn [xvalue].
  - exists [], XNil. split; [constructor|]. right. split; [intros w []|auto].
  - exists [], (XForeign f). split; [constructor|]. right. split; [intros w []|right; exists f; auto].
  - exists ((k', v) :: sets), base. split; [constructor; exact L|]. destruct (ckey_eqb k k') eqn:E.
    + apply key_eqb in E as ->. left. exists [], sets, v. split; [reflexivity|]. split; [intros w []|reflexivity].
    + assert (N : k' <> k) by (intros ->; assert (C : ckey_eqb k k = true) by (apply key_eqb; reflexivity); congruence).
      destruct Q as [(a & b & v' & -> & Na & ->)|[Na Q]].
      * left. exists ((k', v) :: a), b, v'. split; [reflexivity|]. split; [|reflexivity]. intros w [C|C]; [congruence|exact (Na w C)].
      * right. split; [|exact Q]. intros w [C|C]; [congruence|exact (Na w C)].
  - exists sets, base. split; [constructor; exact L|exact Q].
Qed.
Lemma layers_unique c sets base sets' base' : layers c sets base -> layers c sets' base' -> sets = sets' /\ base = base'.
Proof.
  intros L. revert sets' base'. induction L as [|f|c k v sets base L IH|c sets base L IH]; intros sets' base' L'; inversion L' as [E|f' E|c' k' v' s' b' M E|c' s' b' M E]; subst; auto.
  destruct (IH _ _ M) as [-> ->]. auto.
Qed.
Lemma first_unique (sets : list (ckey * cval)) k a b v a' b' v' : sets = a ++ (k, v) :: b -> (forall w, ~ In (k, w) a) -> sets = a' ++ (k, v') :: b' -> (forall w, ~ In (k, w) a') -> v = v'.
Proof.
  intros ->. revert a'. induction a as [|x a IH]; intros [|y a'] N E N'; cbn [app] in E; injection E; intros; subst.
  - reflexivity.
  - exfalso. apply (N' v). left. reflexivity.
  - exfalso. apply (N v'). left. reflexivity.
  - apply (IH a'); auto; intros w C; [exact (N w (or_intror C))|exact (N' w (or_intror C))].
Qed.
Lemma answer_unique c k r r' : answer c k r -> answer c k r' -> r = r'.
Proof.
  intros (sets & base & L & Q) (sets' & base' & L' & Q'). destruct (layers_unique _ _ _ _ _ L L') as [<- <-].
  destruct Q as [(a & b & v & E & N & ->)|[N Q]]; destruct Q' as [(a' & b' & v' & E' & N' & ->)|[N' Q']].
  - f_equal. eapply first_unique; eassumption.
  - exfalso. apply (N' v). rewrite E. apply in_or_app. right. left. reflexivity.
  - exfalso. apply (N v'). rewrite E'. apply in_or_app. right. left. reflexivity.
  - destruct Q as [[-> ->]|(f & -> & ->)]; destruct Q' as [[E ->]|(f' & E & ->)]; congruence.
Qed.
Lemma answer_iff c k r : answer c k r <-> xvalue c k = r.
Proof. split; [intros Q; eapply answer_unique; [apply answer_value|exact Q]|intros <-; apply answer_value]. Qed.
Lemma names_string r o : names r o <-> string_of r = Some o.
Proof.
  destruct r as [[s|n]| |], o as [s'|]; cbn; split; intros E; try discriminate E; try congruence; eauto; try (destruct E as [E|[m E]]; discriminate E); auto.
Qed.

Section Facts.
Context {A : Type}.
Variable norm : bytes -> bytes.
Notation state := (@state A).
Definition plain (lo dom : option bytes) : ctx :=
  let c := match dom with Some d => set_ctx_domain CBackground d | None => CBackground end in
  match lo with Some l => set_ctx_locale c l | None => c end.
Lemma plain_ok lo dom : private (plain lo dom) /\ most_recent (plain lo dom) KLang lo /\ most_recent (plain lo dom) KDomain dom.
Proof.
  unfold plain, set_ctx_locale, set_ctx_domain. destruct lo as [l|], dom as [x|]; unfold private, most_recent; cbn [settings].
  - split; [intros k v [H|[H|[]]] _; injection H as <- <-; eauto|]. split; [exists [], [(KDomain, VString x)]; split; [reflexivity|intros v []]|].
    exists [(KLang, VString l)], []. split; [reflexivity|]. intros v [H|[]]. discriminate H.
  - split; [intros k v [H|[]] _; injection H as <- <-; eauto|]. split; [exists [], []; split; [reflexivity|intros v []]|]. intros v [H|[]]. discriminate H.
  - split; [intros k v [H|[]] _; injection H as <- <-; eauto|]. split; [intros v [H|[]]; discriminate H|]. exists [], []. split; [reflexivity|intros v []].
  - split; [intros k v []|]. split; intros v [].
Qed.
Lemma plain_get lo dom : get_ctx_locale (plain lo dom) = lo /\ get_ctx_domain (plain lo dom) = dom.
Proof. destruct lo, dom; split; reflexivity. Qed.
Lemma with_plain (s : state) c d lo dom : get_locale_x c = Some lo -> get_domain_x c = Some dom ->
  with_context_x norm s c d = (Some (fst (with_context norm s (plain lo dom) d)), snd (with_context norm s (plain lo dom) d)).
Proof.
  intros E1 E2. unfold with_context_x, with_context. destruct (plain_get lo dom) as [-> ->]. rewrite E1, E2. destruct (g_clone s) as [h1 s1].
  destruct lo as [l|]; [destruct (h_L norm s1 h1 l d) as [h2 s2]|]; destruct dom as [x|]; try reflexivity; destruct (h_D _ _ _); reflexivity.
Qed.
End Facts.
