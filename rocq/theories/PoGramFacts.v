(** The reader on the layouts of PoGramSpec. *)
From Coq Require Import Lia.
From Verif Require Import GoStr GoStrFacts TrimFacts GoQuote GoQuoteFacts GoMap GoMapFacts FileModel FileFacts
  PoModel PoSpec PoReadFacts PoSameFacts PoWriteFacts PoCatalogFacts BlankSpec BlankFacts LitSpec LitFacts PoGramSpec.

(** ** Strings with white space around them *)
Lemma literal_ends q t : literal q t -> exists c m, (c = DQ \/ c = SQ \/ c = BQ) /\ q = c :: m ++ [c].
Proof.
  intros [body t' _|body _| |body t' _]; [exists DQ, body|exists BQ, body|exists SQ, []|exists SQ, body]; auto.
Qed.
Lemma spaced_trim s t : spaced s t -> unquote (trim_space s) = Some t.
Proof.
  intros (a & q & b & -> & Ba & Bb & L). apply unquote_literal.
  rewrite (trim_trims _ q); [exact L|]. exists a, b. split; [reflexivity|]. split; [exact Ba|]. split; [exact Bb|].
  destruct (literal_ends q t L) as (c & m & Hc & ->). split.
  - intros w u W E. destruct Hc as [-> | [-> | ->]]; blank_cases W; discriminate E.
  - intros w u W E. apply (f_equal (@rev ascii)) in E. rewrite (rev_app_distr u w) in E.
    change (c :: m ++ [c]) with ([c] ++ m ++ [c]) in E. rewrite !rev_app_distr in E. cbn [rev app] in E.
    destruct Hc as [-> | [-> | ->]]; blank_cases W; discriminate E.
Qed.
Lemma trim_spaced s t : unquote (trim_space s) = Some t -> spaced s t.
Proof.
  intros H. apply unquote_literal in H. destruct (trims_trim s) as (a & b & E & Ba & Bb & _).
  exists a, (trim_space s), b. auto.
Qed.
Lemma data_spaced k s p f : spaced s p -> on_data (k ++ SP :: s) (k ++ [SP]) f = f p.
Proof.
  intros H. unfold on_data, remove_prefix_unquote.
  replace (k ++ SP :: s) with ((k ++ [SP]) ++ s) by (rewrite <- app_assoc; reflexivity).
  rewrite trim_prefix_app, (spaced_trim _ _ H). reflexivity.
Qed.
Lemma data_more l p f : continues l p -> on_data l [] f = f p.
Proof.
  intros [_ H]. unfold on_data, remove_prefix_unquote.
  change (trim_prefix [] l) with l. rewrite (spaced_trim _ _ H). reflexivity.
Qed.

(** ** One line *)
Lemma act_more s e l p : continues l p -> line_action s e l =
  match s with
  | SNone => ANext s e
  | SCtxt => ANext s (app_ctxt e p)
  | SId2 => ANext s (app_id2 e p)
  | SId => ANext s (app_id e p)
  | SStrN => match app_strn e p with Some e' => ANext s e' | None => APanic end
  | SStr => ANext s (app_str e p)
  end.
Proof.
  intros C. pose proof (fun f => data_more l p f C) as D. destruct C as [[t ->] _].
  unfold line_action. cbn [app] in *. rewrite not_blank by apply visible_dq.
  change (has_prefix P_cmt (DQ :: t)) with false. change (has_prefix P_ctxt (DQ :: t)) with false.
  change (has_prefix P_id2 (DQ :: t)) with false. change (has_prefix P_id (DQ :: t)) with false.
  change (has_prefix (P_strn (length (e_strn e))) (DQ :: t)) with false.
  change (has_prefix P_str (DQ :: t)) with false. change (has_prefix [DQ] (DQ :: t)) with true.
  cbv iota. apply D.
Qed.
Lemma act_ctxt e x p : spaced x p -> line_action SNone e (B "msgctxt" ++ SP :: x) = ANext SCtxt (app_ctxt e p).
Proof.
  intros H. unfold line_action. change (B "msgctxt" ++ SP :: x) with ("m"%char :: B "sgctxt" ++ SP :: x) at 1.
  rewrite not_blank by apply visible_m. change (has_prefix P_cmt (B "msgctxt" ++ SP :: x)) with false.
  change (has_prefix P_ctxt (B "msgctxt" ++ SP :: x)) with true. cbn [st_eqb negb]. cbv iota. (etransitivity; [exact (data_spaced (B "msgctxt") x p _ H)|reflexivity]).
Qed.
Lemma act_id s e x p : s = SNone \/ s = SCtxt -> spaced x p -> line_action s e (B "msgid" ++ SP :: x) = ANext SId (app_id e p).
Proof.
  intros Hs H. unfold line_action. change (B "msgid" ++ SP :: x) with ("m"%char :: B "sgid" ++ SP :: x) at 1.
  rewrite not_blank by apply visible_m. change (has_prefix P_cmt (B "msgid" ++ SP :: x)) with false.
  change (has_prefix P_ctxt (B "msgid" ++ SP :: x)) with false.
  change (has_prefix P_id2 (B "msgid" ++ SP :: x)) with false.
  change (has_prefix P_id (B "msgid" ++ SP :: x)) with true.
  destruct Hs as [-> | ->]; cbn [equals_any existsb st_eqb orb]; cbv iota; (etransitivity; [exact (data_spaced (B "msgid") x p _ H)|reflexivity]).
Qed.
Lemma act_id2 e x p : spaced x p -> line_action SId e (B "msgid_plural" ++ SP :: x) = ANext SId2 (set_plural (app_id2 e p)).
Proof.
  intros H. unfold line_action. change (B "msgid_plural" ++ SP :: x) with ("m"%char :: B "sgid_plural" ++ SP :: x) at 1.
  rewrite not_blank by apply visible_m. change (has_prefix P_cmt (B "msgid_plural" ++ SP :: x)) with false.
  change (has_prefix P_ctxt (B "msgid_plural" ++ SP :: x)) with false.
  change (has_prefix P_id2 (B "msgid_plural" ++ SP :: x)) with true.
  cbn [equals_any existsb st_eqb orb]; cbv iota. (etransitivity; [exact (data_spaced (B "msgid_plural") x p _ H)|reflexivity]).
Qed.
Lemma act_str s e x p : s = SId \/ s = SId2 -> spaced x p -> line_action s e (B "msgstr" ++ SP :: x) = ANext SStr (app_str e p).
Proof.
  intros Hs H. unfold line_action. change (B "msgstr" ++ SP :: x) with ("m"%char :: B "sgstr" ++ SP :: x) at 1.
  rewrite not_blank by apply visible_m. change (has_prefix P_cmt (B "msgstr" ++ SP :: x)) with false.
  change (has_prefix P_ctxt (B "msgstr" ++ SP :: x)) with false.
  change (has_prefix P_id2 (B "msgstr" ++ SP :: x)) with false.
  change (has_prefix P_id (B "msgstr" ++ SP :: x)) with false.
  change (has_prefix (P_strn (length (e_strn e))) (B "msgstr" ++ SP :: x)) with false.
  change (has_prefix P_str (B "msgstr" ++ SP :: x)) with true.
  destruct Hs as [-> | ->]; cbn [equals_any existsb st_eqb orb]; cbv iota; (etransitivity; [exact (data_spaced (B "msgstr") x p _ H)|reflexivity]).
Qed.
Lemma act_strn s e x p : s <> SStr -> spaced x p ->
  line_action s e (K_strn (length (e_strn e)) ++ SP :: x) = ANext SStrN (new_strn e p).
Proof.
  intros Hs H. set (i := length (e_strn e)). unfold line_action.
  change (K_strn i ++ SP :: x) with ("m"%char :: (B "sgstr[" ++ dec (N.of_nat i) ++ B "]") ++ SP :: x) at 1.
  rewrite not_blank by apply visible_m. change (has_prefix P_cmt (K_strn i ++ SP :: x)) with false.
  change (has_prefix P_ctxt (K_strn i ++ SP :: x)) with false.
  change (has_prefix P_id2 (K_strn i ++ SP :: x)) with false.
  change (has_prefix P_id (K_strn i ++ SP :: x)) with false. fold i.
  assert (E : has_prefix (P_strn i) (K_strn i ++ SP :: x) = true).
  { unfold P_strn. replace (K_strn i ++ SP :: x) with ((K_strn i ++ [SP]) ++ x) by (rewrite <- app_assoc; reflexivity).
    apply has_prefix_app. }
  rewrite E. replace (equals_any s [SStr]) with false by (destruct s; try reflexivity; congruence).
  (etransitivity; [exact (data_spaced (K_strn i) x p _ H)|reflexivity]).
Qed.
Lemma act_cmt e l : starts (B "#") l -> line_action SNone e l = ANext SNone (app_cmt e l).
Proof.
  intros [t ->]. unfold line_action. change (B "#" ++ t) with ("#"%char :: t).
  rewrite not_blank by (split; vm_compute; reflexivity). reflexivity.
Qed.

(** ** Fields *)
Lemma acts_field' s0 e0 k s (upd : bytes -> entry) t ls :
  (forall x p, spaced x p -> line_action s0 e0 (k ++ SP :: x) = ANext s (upd p)) ->
  (forall acc l p, continues l p -> line_action s (upd acc) l = ANext s (upd (acc ++ p))) ->
  field k t ls -> acts s0 e0 ls s (upd t).
Proof.
  intros H1 H2 F. induction F as [x t H|t ls l t' F IH C].
  - eapply A_cons; [apply H1, H|apply A_nil].
  - eapply acts_app; [exact IH|]. eapply A_cons; [apply H2, C|apply A_nil].
Qed.
Lemma lay_ctxt e c ls : field (B "msgctxt") c ls -> acts SNone e ls SCtxt (app_ctxt e c).
Proof.
  apply acts_field' with (upd := fun d => app_ctxt e d); [apply act_ctxt|].
  intros acc l p H. rewrite (act_more _ _ _ _ H). unfold app_ctxt. cbn. rewrite app_assoc. reflexivity.
Qed.
Lemma lay_id s e c ls : s = SNone \/ s = SCtxt -> field (B "msgid") c ls -> acts s e ls SId (app_id e c).
Proof.
  intros Hs. apply acts_field' with (upd := fun d => app_id e d); [intros; apply act_id; assumption|].
  intros acc l p H. rewrite (act_more _ _ _ _ H). unfold app_id. cbn. rewrite app_assoc. reflexivity.
Qed.
Lemma lay_id2 e c ls : field (B "msgid_plural") c ls -> acts SId e ls SId2 (set_plural (app_id2 e c)).
Proof.
  apply acts_field' with (upd := fun d => set_plural (app_id2 e d)); [intros; apply act_id2; assumption|].
  intros acc l p H. rewrite (act_more _ _ _ _ H). unfold set_plural, app_id2. cbn. rewrite app_assoc. reflexivity.
Qed.
Lemma lay_str s e c ls : s = SId \/ s = SId2 -> field (B "msgstr") c ls -> acts s e ls SStr (app_str e c).
Proof.
  intros Hs. apply acts_field' with (upd := fun d => app_str e d); [intros; apply act_str; assumption|].
  intros acc l p H. rewrite (act_more _ _ _ _ H). unfold app_str. cbn. rewrite app_assoc. reflexivity.
Qed.
Lemma lay_strn1 s e c ls : s <> SStr -> field (K_strn (length (e_strn e))) c ls -> acts s e ls SStrN (new_strn e c).
Proof.
  intros Hs. apply acts_field' with (upd := fun d => new_strn e d); [intros; apply act_strn; assumption|].
  intros acc l p H. rewrite (act_more _ _ _ _ H). unfold app_strn, new_strn. cbn [e_strn]. rewrite app_last_snoc. reflexivity.
Qed.
Lemma lay_strn i l ls : forms i l ls -> forall s e, i = length (e_strn e) -> s <> SStr ->
  acts s e ls (match l with [] => s | _ => SStrN end) (add_strn e l).
Proof.
  induction 1 as [i|i t ts ls ls' F H IH]; intros s e Hi Hs.
  - unfold add_strn. rewrite app_nil_r, entry_eta. apply A_nil.
  - subst i. eapply acts_app; [apply lay_strn1; [exact Hs|exact F]|].
    specialize (IH SStrN (new_strn e t)). cbn [new_strn e_strn] in IH. rewrite app_length in IH. cbn [length] in IH.
    replace (add_strn e (t :: ts)) with (add_strn (new_strn e t) ts)
      by (unfold add_strn, new_strn; cbn; rewrite <- app_assoc; reflexivity).
    replace (match ts with [] => SStrN | _ => SStrN end) with SStrN in IH by (destruct ts; reflexivity).
    apply IH; [lia|discriminate].
Qed.
Lemma lay_cmts l : forall e, (forall c, In c l -> starts (B "#") c) ->
  acts SNone e l SNone {| e_cmts := e_cmts e ++ l; e_ctxt := e_ctxt e; e_id := e_id e; e_plural := e_plural e;
     e_id2 := e_id2 e; e_str := e_str e; e_strn := e_strn e |}.
Proof.
  induction l as [|c r IH]; intros e H.
  - rewrite app_nil_r, entry_eta. apply A_nil.
  - apply A_cons with (s1 := SNone) (e1 := app_cmt e c); [apply act_cmt, H; left; reflexivity|].
    specialize (IH (app_cmt e c)). cbn [app_cmt e_cmts e_ctxt e_id e_plural e_id2 e_str e_strn] in IH.
    rewrite <- app_assoc in IH. apply IH. intros x Hx; apply H; right; exact Hx.
Qed.

(** ** Entries *)
Lemma field_head k t ls : field k t ls -> exists s r, ls = (k ++ SP :: s) :: r.
Proof.
  induction 1 as [s t H|t ls l t' F (s & r & ->) C]; [exists s, []; reflexivity|]. exists s, (r ++ [l]). reflexivity.
Qed.
Lemma lays_acts e ls : lays e ls -> exists s, finished s /\ acts SNone zero_entry ls s e.
Proof.
  intros (lc & li & l2 & lstr & ln & -> & Hc & Lc & Li & L2 & Ls & Ln & X).
  pose proof (lay_cmts (e_cmts e) zero_entry Hc) as A0. cbn [zero_entry e_cmts e_ctxt e_id e_plural e_id2 e_str e_strn app] in A0.
  set (e0 := {| e_cmts := e_cmts e; e_ctxt := e_ctxt e; e_id := []; e_plural := false; e_id2 := []; e_str := []; e_strn := [] |}).
  assert (A1 : exists s, (s = SNone \/ s = SCtxt) /\ acts SNone
     {| e_cmts := e_cmts e; e_ctxt := []; e_id := []; e_plural := false; e_id2 := []; e_str := []; e_strn := [] |} lc s e0).
  { destruct Lc as [F|[E ->]].
    - exists SCtxt. split; [auto|]. exact (lay_ctxt {| e_cmts := e_cmts e; e_ctxt := []; e_id := []; e_plural := false; e_id2 := []; e_str := []; e_strn := [] |} _ _ F).
    - exists SNone. split; [auto|]. unfold e0. rewrite E. apply A_nil. }
  destruct A1 as (s1 & Hs1 & A1).
  pose proof (lay_id s1 e0 _ _ Hs1 Li) as A2. unfold app_id, e0 in A2. cbn [e_cmts e_ctxt e_id e_plural e_id2 e_str e_strn app] in A2.
  set (e1 := {| e_cmts := e_cmts e; e_ctxt := e_ctxt e; e_id := e_id e; e_plural := e_plural e; e_id2 := e_id2 e; e_str := []; e_strn := [] |}).
  assert (A3 : exists s2, (s2 = SId \/ s2 = SId2) /\ acts SId
     {| e_cmts := e_cmts e; e_ctxt := e_ctxt e; e_id := e_id e; e_plural := false; e_id2 := []; e_str := []; e_strn := [] |} l2 s2 e1).
  { unfold e1. destruct (e_plural e).
    - exists SId2. split; [auto|]. exact (lay_id2 {| e_cmts := e_cmts e; e_ctxt := e_ctxt e; e_id := e_id e; e_plural := false; e_id2 := []; e_str := []; e_strn := [] |} _ _ L2).
    - destruct L2 as [-> ->]. exists SId. split; [auto|]. apply A_nil. }
  destruct A3 as (s2 & Hs2 & A3).
  set (e2 := {| e_cmts := e_cmts e; e_ctxt := e_ctxt e; e_id := e_id e; e_plural := e_plural e; e_id2 := e_id2 e; e_str := e_str e; e_strn := [] |}).
  assert (A4 : exists s3, finished s3 /\ (ln <> [] -> s3 <> SStr) /\ acts s2 e1 lstr s3 e2).
  { unfold e2. destruct Ls as [F|[E ->]].
    - exists SStr. split; [unfold finished; tauto|]. split.
      + intros N. destruct X as [->|X]; [|congruence]. apply field_head in F as (? & ? & F). discriminate.
      + apply (lay_str s2 e1 _ _ Hs2 F).
    - exists s2. split; [unfold finished; tauto|]. split; [destruct Hs2; congruence|]. rewrite E. apply A_nil. }
  destruct A4 as (s3 & F3 & N3 & A4).
  assert (A5 : exists s4, finished s4 /\ acts s3 e2 ln s4 e).
  { destruct (e_strn e) as [|x l] eqn:En.
    - exists s3. split; [exact F3|]. inversion Ln. 
      assert (E2 : e2 = e) by (unfold e2; transitivity {| e_cmts := e_cmts e; e_ctxt := e_ctxt e; e_id := e_id e;
        e_plural := e_plural e; e_id2 := e_id2 e; e_str := e_str e; e_strn := e_strn e |};
        [f_equal; symmetry; exact En|apply entry_eta]).
      rewrite E2. apply A_nil.
    - exists SStrN. split; [unfold finished; tauto|].
      assert (Nl : ln <> []).
      { inversion Ln as [|? ? ? ? ? F]; subst. intros E. apply app_eq_nil in E as [-> _].
        apply field_head in F as (? & ? & F). discriminate. }
      pose proof (lay_strn 0 (x :: l) ln Ln s3 e2 eq_refl (N3 Nl)) as A.
      assert (E2 : add_strn e2 (x :: l) = e) by (transitivity {| e_cmts := e_cmts e; e_ctxt := e_ctxt e; e_id := e_id e;
        e_plural := e_plural e; e_id2 := e_id2 e; e_str := e_str e; e_strn := e_strn e |};
        [unfold add_strn, e2; cbn [e_cmts e_ctxt e_id e_plural e_id2 e_str e_strn app]; f_equal; symmetry; exact En|apply entry_eta]).
      rewrite E2 in A. exact A. }
  destruct A5 as (s4 & F4 & A5). exists s4. split; [exact F4|].
  eapply acts_app; [exact A0|]. eapply acts_app; [exact A1|]. eapply acts_app; [exact A2|].
  eapply acts_app; [exact A3|]. eapply acts_app; [exact A4|exact A5].
Qed.
Lemma starts_visible c p l : visible c -> starts (c :: p) l -> ~ white l.
Proof. intros V [t ->] W. unfold white in W. destruct (trim_space_nonempty c (p ++ t) V) as [u E]. cbn [app] in W. rewrite E in W; discriminate. Qed.
Lemma lays_start e ls : lays e ls -> exists l r, ls = l :: r /\ ~ white l
  /\ (starts (B "#") l \/ starts (B "msgctxt ") l \/ starts (B "msgid ") l).
Proof.
  intros (lc & li & l2 & lstr & ln & -> & Hc & Lc & Li & _).
  assert (V : visible "#") by (split; vm_compute; reflexivity).
  destruct (e_cmts e) as [|c cs].
  - destruct Lc as [F|[_ ->]].
    + apply field_head in F as (s & r & ->). eexists _, _. split; [reflexivity|].
      assert (S : starts (B "msgctxt ") (B "msgctxt" ++ SP :: s)) by (exists s; reflexivity).
      split; [|auto]. exact (starts_visible "m" _ _ visible_m S).
    + apply field_head in Li as (s & r & ->). eexists _, _. split; [reflexivity|].
      assert (S : starts (B "msgid ") (B "msgid" ++ SP :: s)) by (exists s; reflexivity).
      split; [|auto]. exact (starts_visible "m" _ _ visible_m S).
  - eexists _, _. split; [reflexivity|]. pose proof (Hc c (or_introl eq_refl)) as S. split; [|auto].
    exact (starts_visible "#" _ _ V S).
Qed.

(** ** Files *)
Lemma mach_lays pot es lss : Forall2 lays es lss -> forall f s e x, finished s ->
  exists s' e', finished s' /\ mach pot f s e (concat lss ++ x) = mach pot (fold_left (addif pot) (removelast (e :: es)) f) s' e' x
    /\ fold_left (addif pot) (e :: es) f = addif pot (fold_left (addif pot) (removelast (e :: es)) f) e'.
Proof.
  induction 1 as [|e1 ls1 es lss L H IH]; intros f s e x F.
  - exists s, e. split; [exact F|]. split; reflexivity.
  - destruct (lays_acts _ _ L) as (s1 & F1 & A1). destruct (lays_start _ _ L) as (l & r & E & W & S).
    destruct (IH (addif pot f e) s1 e1 x F1) as (s' & e' & F' & M & N). exists s', e'. split; [exact F'|].
    cbn [concat]. rewrite <- app_assoc. split.
    + rewrite E at 1. cbn [app]. rewrite mach_nil_start by (apply start_unget; assumption).
      change (l :: r ++ concat lss ++ x) with ((l :: r) ++ concat lss ++ x). rewrite <- E.
      rewrite (acts_mach pot _ _ _ _ _ _ _ A1). rewrite M. reflexivity.
    + exact N.
Qed.
Lemma mach_file pot es lss cs : Forall2 lays es lss -> (forall c, In c cs -> starts (B "#") c) -> (pot = true -> cs = [] /\ es <> []) ->
  mach pot new_file SNone zero_entry (concat lss ++ cs) = PoOk (fold_left (addif pot) es new_file).
Proof.
  intros H Hc Hp. destruct H as [|e1 ls1 es lss L H].
  - assert (pot = false) by (destruct pot; [|reflexivity]; destruct Hp as [_ Hp]; [reflexivity|congruence]). subst pot.
    cbn [concat app]. rewrite <- (app_nil_r cs), (acts_mach _ _ _ _ _ _ _ _ (lay_cmts cs _ Hc)). reflexivity.
  - destruct (lays_acts _ _ L) as (s1 & F1 & A1). cbn [concat]. rewrite <- app_assoc, (acts_mach pot _ _ _ _ _ _ _ A1).
    destruct (mach_lays pot es lss H new_file s1 e1 cs F1) as (s' & e' & F' & -> & E). cbn [fold_left] in E |- *. rewrite E.
    destruct cs as [|c cs]; [reflexivity|].
    assert (pot = false) by (destruct pot; [|reflexivity]; destruct Hp as [Hp _]; [reflexivity|congruence]). subst pot.
    assert (S : starts (B "#") c) by (apply Hc; left; reflexivity).
    rewrite mach_nil_start.
    2:{ apply start_unget; [exact F'|exact (starts_visible "#" _ _ ltac:(split; vm_compute; reflexivity) S)|auto]. }
    rewrite <- (app_nil_r (c :: cs)), (acts_mach _ _ _ _ _ _ _ _ (lay_cmts (c :: cs) _ Hc)). reflexivity.
Qed.
Theorem read_layout content es lss cs : content <> [] -> Forall2 lays es lss -> (forall c, In c cs -> starts (B "#") c) ->
  same_ink (file_lines content) (concat lss ++ cs) ->
  read_po content = PoOk (fold_left (addif false) es new_file).
Proof.
  intros Hc H Hcs S. unfold read_po. rewrite read_po_mach by exact Hc. rewrite file_lines_model.
  rewrite mach_blank, (same_ink_filter _ _ S), <- mach_blank. apply mach_file; [exact H|exact Hcs|discriminate].
Qed.
Theorem read_layout_pot content es lss : Forall2 lays es lss -> es <> [] ->
  same_ink (file_lines content) (concat lss) ->
  read_pot content = PoOk (fold_left add_entry es new_file).
Proof.
  intros H Hne S. assert (Hc : content <> []).
  { intros ->. destruct H as [|e ls es lss L H]; [congruence|]. destruct (lays_start _ _ L) as (l & r & -> & W & _).
    apply same_ink_filter in S. cbn in S. change (blank []) with true in S. rewrite <- blank_white in W.
    destruct (blank l); [congruence|discriminate]. }
  unfold read_pot. rewrite read_po_mach by exact Hc. rewrite file_lines_model.
  rewrite mach_blank, (same_ink_filter _ _ S), <- mach_blank.
  rewrite <- (app_nil_r (concat lss)). rewrite (mach_file true es lss []); [reflexivity|exact H|intros c []|auto].
Qed.

(** ** What is read consists of good lines *)
Lemma on_data_good line p k s e : on_data line p k = ANext s e -> exists t, unquote (trim_space (trim_prefix p line)) = Some t.
Proof. unfold on_data, remove_prefix_unquote. destruct (unquote _) as [t|]; [eauto|discriminate]. Qed.
Lemma key_good k line t : has_prefix (k ++ [SP]) line = true -> unquote (trim_space (trim_prefix (k ++ [SP]) line)) = Some t ->
  exists s, line = k ++ SP :: s /\ spaced s t.
Proof.
  intros P U. apply starts_prefix in P as [s ->]. rewrite trim_prefix_app in U. exists s.
  split; [rewrite <- app_assoc; reflexivity|]. apply trim_spaced, U.
Qed.
Lemma action_good s e l s' e' : line_action s e l = ANext s' e' -> good_line l.
Proof.
  unfold line_action, good_line. destruct (is_empty (trim_space l)) eqn:E0.
  { intros _. left. apply trim_nil. destruct (trim_space l); [reflexivity|discriminate]. }
  destruct (has_prefix P_cmt l) eqn:E1; [intros _; right; left; apply starts_prefix; exact E1|].
  intros H. right; right.
  assert (K : forall k f b, has_prefix (k ++ [SP]) l = true ->
    (In k [B "msgctxt"; B "msgid"; B "msgid_plural"; B "msgstr"] \/ exists i, k = B "msgstr[" ++ dec (N.of_nat i) ++ B "]") ->
    (if b : bool then AUnget else on_data l (k ++ [SP]) f) = ANext s' e' ->
    (exists t, continues l t) \/ exists k s t, l = k ++ SP :: s /\ spaced s t
       /\ (In k [B "msgctxt"; B "msgid"; B "msgid_plural"; B "msgstr"] \/ exists i, k = B "msgstr[" ++ dec (N.of_nat i) ++ B "]")).
  { intros k f b P I Q. destruct b; [discriminate|]. apply on_data_good in Q as [t Q].
    destruct (key_good k l t P Q) as (x & -> & X). right. exists k, x, t. auto. }
  revert H. destruct (has_prefix P_ctxt l) eqn:E2; [apply (K (B "msgctxt")); [exact E2|cbn; tauto]|].
  destruct (has_prefix P_id2 l) eqn:E3; [apply (K (B "msgid_plural")); [exact E3|cbn; tauto]|].
  destruct (has_prefix P_id l) eqn:E4; [apply (K (B "msgid")); [exact E4|cbn; tauto]|].
  destruct (has_prefix (P_strn (length (e_strn e))) l) eqn:E5; [apply (K (K_strn (length (e_strn e)))); [exact E5|right; eexists; reflexivity]|].
  destruct (has_prefix P_str l) eqn:E6; [apply (K (B "msgstr")); [exact E6|cbn; tauto]|].
  destruct (has_prefix [DQ] l) eqn:E7; [|discriminate]. intros H. apply on_data_good in H as [t H]. left. exists t.
  split; [apply starts_prefix; exact E7|]. apply trim_spaced. exact H.
Qed.
Lemma mach_good pot : forall lines f s e f', mach pot f s e lines = PoOk f' -> forall l, In l lines -> good_line l.
Proof.
  induction lines as [|l r IH]; intros f s e f' H x Hx; [destruct Hx|]. cbn [mach] in H.
  assert (R : forall s' e' g, mach pot g s' e' r = PoOk f' -> In x r -> good_line x) by (intros; eapply IH; eauto).
  destruct (line_action s e l) as [s1 e1| | |] eqn:A.
  - destruct Hx as [<-|Hx]; [eapply action_good, A|eapply R; eassumption].
  - destruct (line_action SNone zero_entry l) as [s1 e1| | |] eqn:A'; try discriminate; [|destruct pot; discriminate].
    destruct Hx as [<-|Hx]; [eapply action_good, A'|eapply R; eassumption].
  - destruct pot; discriminate.
  - discriminate.
Qed.
Theorem read_good pot content f : read_po_ pot content = PoOk f -> forall l, In l (file_lines content) -> good_line l.
Proof.
  destruct content as [|c t]; [discriminate|]. rewrite read_po_mach by discriminate. rewrite file_lines_model.
  intros H. eapply mach_good, H.
Qed.
