(** Comments and concatenation. *)
From Coq Require Import Lia.
From Verif Require Import GoStr GoStrFacts TrimFacts GoQuote GoMap GoMapFacts FileModel FileFacts PoModel PoSpec PoReadFacts.

Definition strip_m (m : gmap entry) : gmap entry := map (fun p => (fst p, strip (snd p))) m.
Definition strip_f (f : file) : file :=
  {| f_entries := strip_m (f_entries f); f_headers := f_headers f; f_plural := f_plural f |}.
Definition strip_a (a : action) : action := match a with ANext s e => ANext s (strip e) | x => x end.
Definition strip_r (r : pores) : pores := match r with PoOk f => PoOk (strip_f f) | x => x end.

Lemma strip_strip e : strip (strip e) = strip e. Proof. reflexivity. Qed.
Lemma mget_strip k m : mget k (strip_m m) = option_map strip (mget k m).
Proof. induction m as [|[k' e] m IH]; [reflexivity|]. cbn. destruct (beq k k'); [reflexivity|exact IH]. Qed.
Lemma mput_strip k e m : mput k (strip e) (strip_m m) = strip_m (mput k e m).
Proof. induction m as [|[k' e'] m IH]; [reflexivity|]. cbn. destruct (beq k k'); [reflexivity|]. cbn. f_equal. exact IH. Qed.
Lemma init_header_strip f : init_header (strip_f f) = strip_f (init_header f).
Proof.
  unfold init_header. cbn [strip_f f_headers f_entries f_plural]. destruct (f_headers f); [reflexivity|].
  rewrite mget_strip. destruct (mget _ (f_entries f)); reflexivity.
Qed.
Lemma get_header_strip k f : get_header k (strip_f f) = (fst (get_header k f), strip_f (snd (get_header k f))).
Proof. unfold get_header. rewrite init_header_strip. reflexivity. Qed.
Lemma init_plural_strip f : init_plural (strip_f f) = strip_f (init_plural f).
Proof.
  unfold init_plural. cbn [strip_f f_plural]. destruct (f_plural f); [reflexivity|].
  rewrite get_header_strip. reflexivity.
Qed.
Lemma add_entry_strip f e : add_entry (strip_f f) (strip e) = strip_f (add_entry f e).
Proof.
  unfold add_entry. change (is_header (strip e)) with (is_header e). change (e_key (strip e)) with (e_key e).
  cbn [f_entries strip_f f_headers f_plural]. rewrite mput_strip.
  match goal with |- (if _ then init_plural (init_header ?a) else _) = _ =>
    change a with (strip_f {| f_entries := mput (e_key e) e (f_entries f); f_headers := f_headers f; f_plural := f_plural f |}) end.
  rewrite init_header_strip, init_plural_strip. destruct (is_header e); reflexivity.
Qed.
Lemma addif_strip pot f e : addif pot (strip_f f) (strip e) = strip_f (addif pot f e).
Proof.
  unfold addif. change (is_valid (strip e)) with (is_valid e).
  destruct (pot || is_valid e); [apply add_entry_strip|reflexivity].
Qed.
Lemma strip_on_data line p k k' : (forall d, strip_a (k d) = strip_a (k' d)) ->
  strip_a (on_data line p k) = strip_a (on_data line p k').
Proof. intros H. unfold on_data. destruct (remove_prefix_unquote line p); [apply H|reflexivity]. Qed.
Lemma action_strip s e l : strip_a (line_action s (strip e) l) = strip_a (line_action s e l).
Proof.
  unfold line_action. cbn [strip e_strn].
  repeat match goal with |- strip_a (if ?b then _ else _) = _ => destruct b end; try reflexivity;
    apply strip_on_data; intros d; try reflexivity.
  destruct s; try reflexivity. unfold app_strn. cbn [strip e_strn]. destruct (app_last (e_strn e) d); reflexivity.
Qed.
Lemma mach_strip pot : forall lines f s e,
  strip_r (mach pot (strip_f f) s (strip e) lines) = strip_r (mach pot f s e lines).
Proof.
  assert (SS : forall f, strip_f (strip_f f) = strip_f f).
  { intros f. unfold strip_f. cbn. f_equal. unfold strip_m. rewrite map_map. reflexivity. }
  induction lines as [|l r IH]; intros f s e; cbn [mach].
  - cbn [strip_r]. rewrite addif_strip, SS. reflexivity.
  - pose proof (action_strip s e l) as A. rewrite addif_strip.
    destruct (line_action s (strip e) l) as [s1 e1| | |], (line_action s e l) as [s2 e2| | |]; try discriminate A.
    + cbn [strip_a] in A. assert (s1 = s2) as -> by congruence. assert (A2 : strip e1 = strip e2) by congruence.
      rewrite <- IH, <- (IH f), A2, SS. reflexivity.
    + destruct (line_action SNone zero_entry l) as [s' e'| | |]; try reflexivity.
      rewrite <- IH, SS, IH. reflexivity.
    + destruct pot; reflexivity.
    + reflexivity.
Qed.
Lemma mach_same pot lines f s e e' : strip e = strip e' ->
  strip_r (mach pot f s e lines) = strip_r (mach pot f s e' lines).
Proof. intros H. rewrite <- mach_strip, H, mach_strip. reflexivity. Qed.
Lemma strip_answers f f' : strip_f f = strip_f f' -> same_answers f f'.
Proof.
  intros H. split; [|split; [|split]].
  - intros k. rewrite <- !mget_strip. change (strip_m (f_entries f)) with (f_entries (strip_f f)). rewrite H. reflexivity.
  - assert (L : forall g, fst (lang g) = fst (lang (strip_f g))).
    { intros g. unfold lang. rewrite get_header_strip. destruct (get_header H_language g); reflexivity. }
    rewrite (L f), (L f'), H. reflexivity.
  - intros k.
    assert (L : forall g, fst (get_header k g) = fst (get_header k (strip_f g))).
    { intros g. rewrite get_header_strip. reflexivity. }
    rewrite (L f), (L f'), H. reflexivity.
  - intros A fmt c i i2 n args. split.
    + assert (L : forall g, f_x fmt g c i args = f_x fmt (strip_f g) c i args).
      { intros g. unfold f_x. cbn [strip_f f_entries]. rewrite mget_strip. destruct (mget _ _); reflexivity. }
      rewrite (L f), (L f'), H. reflexivity.
    + assert (L : forall g, fst (f_xn64 fmt g c i i2 n args) = fst (f_xn64 fmt (strip_f g) c i i2 n args)).
      { intros g. unfold f_xn64. rewrite init_plural_strip. cbn [strip_f f_entries f_plural]. rewrite mget_strip.
        destruct (mget _ _) as [e|]; [|reflexivity]. cbn [option_map strip e_id2 e_strn e_str].
        destruct (_ && _); [reflexivity|]. destruct (f_plural (init_plural g)) as [p|]; [|reflexivity].
        destruct (_ <=? _)%Z; [reflexivity|]. destruct (_ || _); [reflexivity|].
        destruct (nth_error _ _) as [s|]; [|reflexivity]. destruct (is_empty s); reflexivity. }
      rewrite (L f), (L f'), H. reflexivity.
Qed.

(** ** States *)
Definition finished (s : pstate) : Prop := s = SId \/ s = SId2 \/ s = SStr \/ s = SStrN.
Lemma blank_white l : blank l = true <-> white l.
Proof. unfold blank, white. destruct (trim_space l); cbn; split; congruence. Qed.
Lemma starts_prefix p l : has_prefix p l = true <-> starts p l.
Proof. apply has_prefix_iff. Qed.
(** a line that starts an entry ends the previous one *)
Lemma start_unget s e l : finished s -> ~ white l ->
  (starts (B "#") l \/ starts (B "msgctxt ") l \/ starts (B "msgid ") l) -> line_action s e l = AUnget.
Proof.
  intros F W S. rewrite <- blank_white in W. unfold line_action. unfold blank in W.
  destruct (is_empty (trim_space l)); [congruence|].
  assert (E1 : negb (st_eqb s SNone) = true) by (destruct F as [-> | [-> | [-> | ->]]]; reflexivity).
  assert (E2 : equals_any s [SId; SId2; SStr; SStrN] = true) by (destruct F as [-> | [-> | [-> | ->]]]; reflexivity).
  rewrite E1, E2. destruct S as [[t ->] | [[t ->] | [t ->]]]; reflexivity.
Qed.
Lemma mach_nil_start pot f s e l r : line_action s e l = AUnget ->
  mach pot f s e (l :: r) = mach pot (addif pot f e) SNone zero_entry (l :: r).
Proof.
  intros E. cbn [mach]. rewrite E. pose proof (no_unget zero_entry l).
  destruct (line_action SNone zero_entry l); [reflexivity|congruence|reflexivity..].
Qed.
Lemma entry_follows_tl l r : white l -> entry_follows (l :: r) -> entry_follows r.
Proof.
  intros W H a x b E Ha. apply (H (l :: a) x b); [cbn; rewrite E; reflexivity|].
  intros y [<-|Hy]; auto.
Qed.
(** finishing a file and starting the next *)
Lemma mach_restart pot lines f s e : finished s -> entry_follows lines ->
  (exists l, In l lines /\ ~ white l) ->
  mach pot f s e lines = mach pot (addif pot f e) SNone zero_entry lines.
Proof.
  intros F. induction lines as [|l r IH]; intros H (x & Hx & Wx); [destruct Hx|].
  destruct (blank l) eqn:E.
  - cbn [mach]. rewrite !action_blank by exact E. apply IH.
    + apply blank_white in E. apply entry_follows_tl with l; assumption.
    + exists x. destruct Hx as [<-|Hx]; [apply blank_white in E; contradiction|auto].
  - assert (W : ~ white l) by (rewrite <- blank_white; congruence).
    apply mach_nil_start, start_unget; [exact F|exact W|].
    apply (H [] l r); [reflexivity|intros y []|exact W].
Qed.
Lemma all_white lines : (exists l, In l lines /\ ~ white l) \/ forall l, In l lines -> white l.
Proof.
  induction lines as [|l r [(x & H & W)|IH]]; [right; intros l []|left; exists x; cbn; auto|].
  destruct (blank l) eqn:E.
  - right. intros y [<-|H]; [apply blank_white; exact E|auto].
  - left. exists l. split; [left; reflexivity|]. rewrite <- blank_white; congruence.
Qed.
Lemma mach_white pot lines f s e : (forall l, In l lines -> white l) -> mach pot f s e lines = PoOk (addif pot f e).
Proof.
  induction lines as [|l r IH]; intros H; [reflexivity|]. cbn [mach].
  rewrite action_blank by (apply blank_white, H; left; reflexivity). apply IH. intros x Hx; apply H; right; exact Hx.
Qed.

(** the state after the lines [a]: no open context means the state is not
    [SCtxt] *)
Inductive in_context : list bytes -> Prop :=
| IC_here l : has_prefix P_ctxt l = true -> blank l = false -> in_context [l]
| IC_more ls l : in_context ls -> (blank l = true \/ has_prefix [DQ] l = true) -> in_context (ls ++ [l]).
Lemma in_context_open ls : (exists pre c, ls = pre ++ c /\ in_context c) -> ~ no_open_context ls.
Proof.
  intros (pre & c & -> & H) N.
  assert (Q : exists l b, c = l :: b /\ starts (B "msgctxt ") l /\ ~ white l
    /\ forall x, In x b -> white x \/ starts [DQ] x).
  { induction H as [l Hl Hb|ls l Hc IH Hl].
    - exists l, []. split; [reflexivity|]. split; [apply starts_prefix; exact Hl|].
      split; [rewrite <- blank_white; congruence|intros x []].
    - destruct IH as (l0 & b & -> & S & W & A).
      { intros a x b E Sx Wx. destruct (N a x (b ++ [l])) as (l' & Hi & W' & S'); [|exact Sx|exact Wx|].
        { rewrite app_assoc, E, <- app_assoc. reflexivity. }
        apply in_app_or in Hi as [Hi|[<-|[]]]; [exists l'; auto|].
        exfalso. destruct Hl as [Hl|Hl]; [apply blank_white in Hl; auto|apply starts_prefix in Hl; auto]. }
      exists l0, (b ++ [l]). split; [reflexivity|]. split; [exact S|]. split; [exact W|].
      intros x Hx. apply in_app_or in Hx as [Hx|[<-|[]]]; [auto|].
      destruct Hl as [Hl|Hl]; [left; apply blank_white; exact Hl|right; apply starts_prefix; exact Hl]. }
  destruct Q as (l & b & -> & S & W & A).
  destruct (N pre l b eq_refl S W) as (x & Hi & W' & S'). destruct (A x Hi); auto.
Qed.
Definition ctx_inv (done : list bytes) (s : pstate) (e : entry) : Prop :=
  (s = SCtxt -> exists pre c, done = pre ++ c /\ in_context c) /\ (s = SNone -> strip e = zero_entry).
Lemma ctx_inv_step done s e l s' e' : ctx_inv done s e -> line_action s e l = ANext s' e' ->
  ctx_inv (done ++ [l]) s' e'.
Proof.
  intros [H1 H2] E.
  assert (K : (s' = s /\ (blank l = true \/ has_prefix [DQ] l = true) /\ (s = SNone -> e' = e)) \/
              (s' = SNone /\ s = SNone /\ strip e' = strip e) \/
              (s' = SCtxt /\ has_prefix P_ctxt l = true /\ blank l = false) \/ (s' <> SCtxt /\ s' <> SNone)).
  { unfold line_action in E. fold (blank l) in E. destruct (blank l) eqn:Eb.
    { injection E as -> ->. left. auto. }
    destruct (has_prefix P_cmt l) eqn:E1.
    { destruct s; cbn in E; try discriminate. injection E as <- <-. right; left. auto. }
    destruct (has_prefix P_ctxt l) eqn:E2.
    { destruct (negb _); [discriminate|]. unfold on_data in E. destruct (remove_prefix_unquote _ _); [|discriminate].
      injection E as <- <-. right; right; left; auto. }
    destruct (has_prefix P_id2 l) eqn:E3.
    { destruct (equals_any _ _); [discriminate|]. unfold on_data in E. destruct (remove_prefix_unquote _ _); [|discriminate].
      injection E as <- <-. right; right; right; split; discriminate. }
    destruct (has_prefix P_id l) eqn:E4.
    { destruct (equals_any _ _); [discriminate|]. unfold on_data in E. destruct (remove_prefix_unquote _ _); [|discriminate].
      injection E as <- <-. right; right; right; split; discriminate. }
    destruct (has_prefix (P_strn _) l) eqn:E5.
    { destruct (equals_any _ _); [discriminate|]. unfold on_data in E. destruct (remove_prefix_unquote _ _); [|discriminate].
      injection E as <- <-. right; right; right; split; discriminate. }
    destruct (has_prefix P_str l) eqn:E6.
    { destruct (equals_any _ _); [discriminate|]. unfold on_data in E. destruct (remove_prefix_unquote _ _); [|discriminate].
      injection E as <- <-. right; right; right; split; discriminate. }
    destruct (has_prefix [DQ] l) eqn:E7; [|discriminate].
    unfold on_data in E. destruct (remove_prefix_unquote _ _); [|discriminate]. left.
    destruct s; [|..|]; try (injection E as <- <-; split; [reflexivity|split; [right; reflexivity|try discriminate; auto]]).
    destruct (app_strn e b); [|discriminate]. injection E as <- <-.
    split; [reflexivity|split; [right; reflexivity|discriminate]]. }
  destruct K as [(-> & K & Ke)|[(-> & -> & K)|[(-> & K & Kb)|[K1 K2]]]].
  - split; [|intros Es; rewrite (Ke Es); auto].
    intros Es. destruct (H1 Es) as (pre & c & -> & I). exists pre, (c ++ [l]). split; [apply app_assoc_reverse|].
    apply IC_more; assumption.
  - split; [discriminate|]. intros _. rewrite K. auto.
  - split; [|discriminate]. intros _. exists done, [l]. split; [reflexivity|]. apply IC_here; assumption.
  - split; intros; contradiction.
Qed.
Lemma ctx_inv_zero done : ctx_inv done SNone zero_entry.
Proof. split; [discriminate|reflexivity]. Qed.
(** running over [a] *)
Lemma mach_over pot : forall a b f s e done, ctx_inv done s e ->
  (exists f' s' e', ctx_inv (done ++ a) s' e' /\ (forall x, mach pot f s e (a ++ x) = mach pot f' s' e' x))
  \/ (forall x, mach pot f s e (a ++ x) = mach pot f s e a) /\ (forall g, mach pot f s e (a ++ b) <> PoOk g).
Proof.
  induction a as [|l a IH]; intros b f s e done H.
  - left. exists f, s, e. rewrite app_nil_r. split; [exact H|reflexivity].
  - cbn [app mach]. destruct (line_action s e l) as [s' e'| | |] eqn:E.
    + pose proof (ctx_inv_step _ _ _ _ _ _ H E) as H'. specialize (IH b f s' e' (done ++ [l]) H').
      rewrite <- app_assoc in IH. exact IH.
    + pose proof (no_unget zero_entry l) as NU. destruct (line_action SNone zero_entry l) as [s' e'| | |] eqn:E0; [|congruence|..].
      * pose proof (ctx_inv_step done _ _ _ _ _ (ctx_inv_zero _) E0) as H'.
        specialize (IH b (addif pot f e) s' e' (done ++ [l]) H'). rewrite <- app_assoc in IH. exact IH.
      * right. split; [reflexivity|]. intros g. destruct pot; discriminate.
      * right. split; [reflexivity|]. discriminate.
    + right. split; [reflexivity|]. intros g. destruct pot; discriminate.
    + right. split; [reflexivity|]. discriminate.
Qed.
Lemma state_cases done s e : ctx_inv done s e -> no_open_context done ->
  finished s \/ (s = SNone /\ strip e = zero_entry).
Proof.
  intros [H1 H2] N. unfold finished. destruct s; auto. exfalso. revert N. apply in_context_open. auto.
Qed.
Lemma addif_comment f e : strip e = zero_entry -> addif false f e = f.
Proof.
  intros H. unfold addif. cbn [orb]. change (is_valid e) with (is_valid (strip e)). rewrite H. reflexivity.
Qed.
Theorem comment_insert f a b c :
  starts (B "#") c -> no_open_context a -> entry_follows b ->
  strip_r (mach false f SNone zero_entry (a ++ c :: b)) = strip_r (mach false f SNone zero_entry (a ++ b)).
Proof.
  intros Hc Ha Hb.
  destruct (mach_over false a b f SNone zero_entry [] (ctx_inv_zero [])) as [(f' & s & e & I & H)|[H _]].
  2:{ rewrite !H. reflexivity. }
  rewrite !H. cbn [app] in I.
  assert (Wc : ~ white c).
  { destruct Hc as [t ->]. intros W. unfold white in W. cbn [app B list_ascii_of_string] in W.
    destruct (trim_space_nonempty "#" t) as [u Eu]; [split; [vm_compute|]; reflexivity|]. rewrite Eu in W. discriminate. }
  assert (A0 : forall e0, line_action SNone e0 c = ANext SNone (app_cmt e0 c)).
  { intros e0. unfold line_action. fold (blank c). destruct (blank c) eqn:Eb; [apply blank_white in Eb; contradiction|].
    destruct Hc as [t ->]. reflexivity. }
  destruct (state_cases a s e I Ha) as [F|[-> Z]].
  - cbn [mach]. rewrite start_unget; [|exact F|exact Wc|left; exact Hc]. rewrite A0.
    destruct (all_white b) as [X|X].
    + rewrite (mach_restart false b f' s e F Hb X). apply mach_same. reflexivity.
    + rewrite !mach_white by exact X. rewrite addif_comment with (e := app_cmt zero_entry c); reflexivity.
  - cbn [mach]. rewrite A0. apply mach_same. reflexivity.
Qed.

(** ** Concatenation of two files *)
Lemma mach_base : forall lines f s e g,
  mach false new_file s e lines = PoOk g ->
  exists h, mach false f s e lines = PoOk h /\
    forall k, mget k (f_entries h) = match mget k (f_entries g) with Some x => Some x | None => mget k (f_entries f) end.
Proof.
  assert (G : forall lines f f0 f1 s e g,
    (forall k, mget k (f_entries f1) = match mget k (f_entries f0) with Some x => Some x | None => mget k (f_entries f) end) ->
    mach false f0 s e lines = PoOk g ->
    exists h, mach false f1 s e lines = PoOk h /\
    forall k, mget k (f_entries h) = match mget k (f_entries g) with Some x => Some x | None => mget k (f_entries f) end).
  { assert (AD : forall f f0 f1 e,
      (forall k, mget k (f_entries f1) = match mget k (f_entries f0) with Some x => Some x | None => mget k (f_entries f) end) ->
      forall k, mget k (f_entries (addif false f1 e)) = match mget k (f_entries (addif false f0 e)) with Some x => Some x | None => mget k (f_entries f) end).
    { intros f f0 f1 e H k. unfold addif. destruct (false || is_valid e); [|apply H].
      rewrite !add_entry_entries. destruct (bytes_dec k (e_key e)) as [-> | N].
      - rewrite !mget_put_same. reflexivity.
      - rewrite !mget_put_other by congruence. apply H. }
    induction lines as [|l r IH]; intros f f0 f1 s e g H; cbn [mach].
    - intros [= <-]. eexists; split; [reflexivity|]. apply AD, H.
    - destruct (line_action s e l) as [s' e'| | |]; [apply IH, H| |discriminate..].
      destruct (line_action SNone zero_entry l) as [s' e'| | |]; [apply IH, AD, H|discriminate..]. }
  intros lines f s e g. apply G. intros k. reflexivity.
Qed.
Lemma mach_concat a b fa fb :
  no_open_context a -> entry_follows b ->
  mach false new_file SNone zero_entry a = PoOk fa -> mach false new_file SNone zero_entry b = PoOk fb ->
  exists f, mach false new_file SNone zero_entry (a ++ b) = PoOk f /\
    forall k, option_map strip (mget k (f_entries f)) =
      option_map strip (match mget k (f_entries fb) with Some x => Some x | None => mget k (f_entries fa) end).
Proof.
  intros Ha Hb Ea Eb.
  destruct (mach_over false a [] new_file SNone zero_entry [] (ctx_inv_zero [])) as [(f' & s & e & I & H)|[_ H]].
  2:{ rewrite app_nil_r in H. destruct (H fa Ea). }
  rewrite H. cbn [app] in I. pose proof (H []) as Ha'. rewrite app_nil_r, Ea in Ha'. cbn [mach] in Ha'. injection Ha' as ->.
  destruct (mach_base b (addif false f' e) SNone zero_entry fb Eb) as (h & Eh & Kh).
  assert (S : strip_r (mach false f' s e b) = strip_r (PoOk h)).
  { rewrite <- Eh. destruct (state_cases a s e I Ha) as [F|[-> Z]].
    - destruct (all_white b) as [X|X]; [rewrite (mach_restart false b f' s e F Hb X); reflexivity|].
      rewrite !mach_white by exact X. rewrite addif_comment with (e := zero_entry); reflexivity.
    - rewrite addif_comment by exact Z. apply mach_same. rewrite Z. reflexivity. }
  destruct (mach false f' s e b) as [f| | |]; try discriminate. injection S as S.
  exists f. split; [reflexivity|]. intros k. rewrite <- Kh.
  pose proof (f_equal (mget k) S) as S'. rewrite !mget_strip in S'. exact S'.
Qed.
