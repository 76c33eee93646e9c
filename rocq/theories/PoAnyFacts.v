(** Reading back saved catalogs that a .po file cannot express. *)
From Coq Require Import Lia Permutation.
From Verif Require Import GoStr GoStrFacts TrimFacts GoQuote GoMap GoMapFacts FileModel FileSpec FileFacts
  WrapModel WrapFacts PoModel PoSpec PoReadFacts SortFacts PoSameFacts PoWriteFacts PoCatalogFacts PoAnySpec.

Definition ink (l : bytes) : bool := negb (blank l).
Lemma ink_eq x : match trim_space x with [] => false | _ => true end = ink x.
Proof. unfold ink, blank. destruct (trim_space x); reflexivity. Qed.
Lemma comment_lines_eq l : comment_lines l = filter ink (concat (map file_lines l)).
Proof. unfold comment_lines. apply filter_ext. apply ink_eq. Qed.
Lemma filter_concat {A B} (P : A -> bool) (g : B -> list A) l :
  filter P (concat (map g l)) = concat (map (fun x => filter P (g x)) l).
Proof. induction l as [|x l IH]; [reflexivity|]. cbn [map concat]. rewrite filter_app, IH. reflexivity. Qed.
Lemma filter_all {A} (P : A -> bool) l : (forall x, In x l -> P x = true) -> filter P l = l.
Proof.
  induction l as [|x l IH]; intros H; [reflexivity|]. cbn [filter]. rewrite H by (left; reflexivity).
  rewrite IH; [reflexivity|]. intros y Hy. apply H. right. exact Hy.
Qed.

(** comments that may hold line breaks, made comment lines *)
Definition tidy (e : entry) : entry :=
  {| e_cmts := comment_lines (e_cmts e); e_ctxt := e_ctxt e; e_id := e_id e; e_plural := e_plural e;
     e_id2 := if e_plural e then e_id2 e else []; e_str := e_str e; e_strn := e_strn e |}.
Lemma comment_lines_ok l : (forall c, In c l -> harmless c) -> forall x, In x (comment_lines l) -> comment_ok x.
Proof.
  intros H x Hx. rewrite comment_lines_eq in Hx. apply filter_In in Hx as [Hx I].
  apply in_concat in Hx as (ls & Hl & Hx). apply in_map_iff in Hl as (c & <- & Hc).
  assert (N : ~ In NL x) by (eapply split_byte_pieces; exact Hx).
  assert (R : ~ In CR x).
  { intros Hr. assert (Q : In CR (filter (fun x => negb (Ascii.eqb x CR)) c)).
    { clear - Hx Hr. unfold file_lines in Hx. revert x Hx Hr. generalize (filter (fun x => negb (Ascii.eqb x CR)) c) as t.
      induction t as [|y t IH]; intros x Hx Hr; cbn [split_byte] in Hx.
      - destruct Hx as [<-|[]]. exact Hr.
      - destruct (Ascii.eqb y NL).
        + destruct Hx as [<-|Hx]; [destruct Hr|]. right. eapply IH; eassumption.
        + destruct (split_byte NL t) as [|z r] eqn:E; [destruct Hx as [<-|[]]; destruct Hr as [<-|[]]; left; reflexivity|].
          destruct Hx as [<-|Hx].
          * destruct Hr as [<-|Hr]; [left; reflexivity|right]. apply (IH z); [left; reflexivity|exact Hr].
          * right. apply (IH x); [right; exact Hx|exact Hr]. }
    apply filter_In in Q as [_ Q]. discriminate. }
  destruct (H c Hc x Hx) as [W|W].
  - apply blank_white in W. unfold ink in I. rewrite W in I. discriminate.
  - split; [exact W|split; assumption].
Qed.
Lemma comment_lines_id l : (forall x, In x l -> comment_ok x) -> comment_lines l = l.
Proof.
  intros H. rewrite comment_lines_eq.
  assert (E : concat (map file_lines l) = l).
  { induction l as [|c l IH]; [reflexivity|]. cbn [map concat]. rewrite IH by (intros x Hx; apply H; right; exact Hx).
    destruct (H c (or_introl eq_refl)) as (_ & N & R). unfold file_lines.
    change (filter (fun x => negb (Ascii.eqb x CR)) c) with (remove_byte CR c). rewrite remove_byte_no by exact R.
    rewrite split_byte_no by exact N. reflexivity. }
  rewrite E. apply filter_all. intros x Hx. unfold ink. destruct (blank x) eqn:Eb; [|reflexivity].
  exfalso. apply (comment_visible x (H x Hx)), blank_white, Eb.
Qed.

Section A.
Variable isp : N -> bool.

(** ** The lines of a saved file that are not white *)
Lemma remove_app c a b : remove_byte c (a ++ b) = remove_byte c a ++ remove_byte c b.
Proof. unfold remove_byte. apply filter_app. Qed.
Lemma lines_nl a b : po_lines_of ((a ++ [NL]) ++ b) = po_lines_of a ++ po_lines_of b.
Proof.
  unfold po_lines_of. rewrite <- app_assoc. cbn [app]. rewrite remove_app.
  change (remove_byte CR (NL :: b)) with (NL :: remove_byte CR b). apply split_byte_app_gen.
Qed.
Lemma lines_text ls b : po_lines_of (text_of ls ++ b) = concat (map po_lines_of ls) ++ po_lines_of b.
Proof.
  induction ls as [|l r IH]; [reflexivity|]. change (text_of (l :: r)) with ((l ++ [NL]) ++ text_of r).
  rewrite <- app_assoc, lines_nl. cbn [map concat]. rewrite IH, app_assoc. reflexivity.
Qed.
Lemma lines_clean ls : (forall x, In x ls -> clean x) -> concat (map po_lines_of ls) = ls.
Proof.
  induction ls as [|l r IH]; intros H; [reflexivity|]. cbn [map concat].
  rewrite IH by (intros x Hx; apply H; right; exact Hx). destruct (H l (or_introl eq_refl)) as [N R].
  unfold po_lines_of. rewrite remove_byte_no by exact R. rewrite split_byte_no by exact N. reflexivity.
Qed.
(** an entry without comments *)
Definition bare (e : entry) : entry :=
  {| e_cmts := []; e_ctxt := e_ctxt e; e_id := e_id e; e_plural := e_plural e;
     e_id2 := e_id2 e; e_str := e_str e; e_strn := e_strn e |}.
Lemma concat_nil_lines : filter ink (po_lines_of []) = [].
Proof. reflexivity. Qed.
Section Lines.
Variable lines_of : entry -> list bytes.
Hypothesis Hbare : forall e, lines_of e = e_cmts e ++ lines_of (bare e).
Hypothesis Hclean : forall e x, e_cmts e = [] -> In x (lines_of e) -> clean x.
Hypothesis Hid2 : forall e, lines_of (bare (tidy e)) = lines_of (bare e).
Lemma ink_lines es : filter ink (po_lines_of (concat (map (fun e => text_of (lines_of e)) es)))
  = concat (map (fun e => filter ink (lines_of (tidy e))) es).
Proof.
  rewrite concat_text. rewrite <- (app_nil_r (text_of _)), lines_text, filter_app, concat_nil_lines, app_nil_r.
  induction es as [|e es IH]; [reflexivity|].
  cbn [map concat]. rewrite map_app, concat_app, filter_app, IH. f_equal.
  rewrite (Hbare e), (Hbare (tidy e)), map_app, concat_app, !filter_app. f_equal.
  - cbn [tidy e_cmts]. rewrite comment_lines_eq. rewrite (filter_all ink (filter ink _)); [reflexivity|].
    intros x Hx. apply filter_In in Hx. apply Hx.
  - rewrite lines_clean by (intros x Hx; apply (Hclean (bare e)); [reflexivity|exact Hx]). rewrite Hid2. reflexivity.
Qed.
End Lines.

(** the saved texts of [es] and of their tidy forms read alike *)
Lemma po_lines_bare e : po_lines isp e = e_cmts e ++ po_lines isp (bare e).
Proof. reflexivity. Qed.
Lemma pot_lines_bare e : pot_lines isp e = e_cmts e ++ pot_lines isp (bare e).
Proof. reflexivity. Qed.
Lemma tidy_tidy e : (forall c, In c (e_cmts e) -> harmless c) -> tidy (tidy e) = tidy e.
Proof.
  intros H. unfold tidy. cbn [e_cmts e_ctxt e_id e_plural e_id2 e_str e_strn]. f_equal.
  - apply comment_lines_id, comment_lines_ok, H.
  - destruct (e_plural e); reflexivity.
Qed.
Lemma po_text_tidy es : concat (map (po_entry isp) es) = concat (map (fun e => text_of (po_lines isp e)) es).
Proof. rewrite (map_ext _ _ (po_entry_lines isp)). reflexivity. Qed.
Lemma text_cons_ne {A} (g : A -> list bytes) x r : g x <> [] -> text_of (concat (map g (x :: r))) <> [].
Proof.
  cbn [map concat]. destruct (g x) as [|l t]; [congruence|]. intros _. unfold text_of. cbn [app map concat].
  destruct l; discriminate.
Qed.
Lemma po_lines_ne e : po_lines isp e <> [].
Proof. unfold po_lines. rewrite !app_assoc. intros H. apply app_eq_nil in H as [_ H]. discriminate. Qed.
Lemma pot_lines_ne e : pot_lines isp e <> [].
Proof. unfold pot_lines. rewrite !app_assoc. intros H. apply app_eq_nil in H as [_ H]. discriminate. Qed.
Lemma read_tidy pot lines_of es : (forall e, lines_of e = e_cmts e ++ lines_of (bare e)) ->
  (forall e x, e_cmts e = [] -> In x (lines_of e) -> clean x) ->
  (forall e, lines_of (bare (tidy e)) = lines_of (bare e)) -> (forall e, lines_of e <> []) ->
  es <> [] -> (forall e c, In e es -> In c (e_cmts e) -> harmless c) ->
  read_po_ pot (concat (map (fun e => text_of (lines_of e)) es))
  = read_po_ pot (concat (map (fun e => text_of (lines_of e)) (map tidy es))).
Proof.
  intros H1 H2 H3 H4 Ne H. apply read_blank.
  - rewrite concat_text. destruct es; [congruence|]. apply text_cons_ne, H4.
  - rewrite concat_text. destruct es; [congruence|]. apply text_cons_ne, H4.
  - change (fun l => negb (blank l)) with ink. rewrite !ink_lines by assumption. rewrite map_map. f_equal.
    apply map_ext_in. intros e He. rewrite tidy_tidy; [reflexivity|]. intros c. apply H, He.
Qed.
Lemma po_bare_clean e x : e_cmts e = [] -> In x (po_lines isp e) -> clean x.
Proof. intros E. apply po_lines_clean. rewrite E. intros c []. Qed.
Lemma pot_bare_clean e x : e_cmts e = [] -> In x (pot_lines isp e) -> clean x.
Proof. intros E. apply pot_lines_clean. rewrite E. intros c []. Qed.
Lemma po_bare_tidy e : po_lines isp (bare (tidy e)) = po_lines isp (bare e).
Proof. unfold po_lines, bare, tidy. cbn [e_cmts e_ctxt e_id e_plural e_id2 e_str e_strn]. destruct (e_plural e); reflexivity. Qed.
Lemma pot_bare_tidy e : pot_lines isp (bare (tidy e)) = pot_lines isp (bare e).
Proof. unfold pot_lines, bare, tidy. cbn [e_cmts e_ctxt e_id e_plural e_id2 e_str e_strn]. destruct (e_plural e); reflexivity. Qed.

(** ** Entries with one translation and plural forms *)
Definition leftovers (e : entry) : list entry :=
  match e_str e, e_strn e with _ :: _, _ :: _ => [leftover e] | _, _ => [] end.
Definition parts (e : entry) : list entry := kept e :: leftovers e.
Lemma unget_strn e x : e_strn e = [] -> line_action SStr e (K_strn 0 ++ SP :: GoQuote.quote isp x) = AUnget.
Proof.
  intros E. unfold line_action. rewrite E.
  change (K_strn 0 ++ SP :: GoQuote.quote isp x) with ("m"%char :: B "sgstr[0]" ++ SP :: GoQuote.quote isp x) at 1.
  rewrite not_blank by apply visible_m. reflexivity.
Qed.
Definition tidied (e : entry) : Prop := (forall c, In c (e_cmts e) -> comment_ok c) /\ (e_plural e = true \/ e_id2 e = []).
Lemma kept_tidy e : tidied e -> kept e = {| e_cmts := e_cmts e; e_ctxt := e_ctxt e; e_id := e_id e;
  e_plural := e_plural e; e_id2 := e_id2 e; e_str := e_str e; e_strn := match e_str e with [] => e_strn e | _ => [] end |}.
Proof.
  intros [C P]. unfold kept. rewrite comment_lines_id by exact C. f_equal. destruct P as [->|P]; [reflexivity|].
  rewrite P. destruct (e_plural e); reflexivity.
Qed.
Lemma kept_ok e : tidied e -> po_ok (kept e).
Proof.
  intros T. rewrite kept_tidy by exact T. destruct T as [C P]. split; [exact C|]. split; [exact P|].
  cbn [e_str e_strn]. destruct (e_str e); [left; reflexivity|right; reflexivity].
Qed.
Lemma mach_parts pot e : tidied e -> exists s, finished s /\ forall f x, exists g e',
  mach pot f SNone zero_entry (po_lines isp e ++ x) = mach pot g s e' x
  /\ addif pot g e' = fold_left (addif pot) (parts e) f.
Proof.
  intros T. destruct (acts_po_end isp (kept e) (kept_ok e T)) as (s & F & M & A).
  unfold parts, leftovers. destruct (e_str e) as [|c st] eqn:Es.
  - assert (Ek : kept e = e).
    { rewrite kept_tidy by exact T. rewrite Es. rewrite <- Es. apply entry_eta. }
    exists s. split; [exact F|]. intros f x. exists f, (kept e). rewrite Ek in *. split; [|reflexivity].
    apply acts_mach, A.
  - destruct (e_strn e) as [|y l] eqn:En.
    { assert (Ek : kept e = e).
      { rewrite kept_tidy by exact T. rewrite Es. rewrite <- Es, <- En. apply entry_eta. }
      exists s. split; [exact F|]. intros f x. exists f, (kept e). rewrite Ek in *. split; [|reflexivity].
      apply acts_mach, A. }
    exists SStrN. split; [unfold finished; tauto|]. intros f x. exists (addif pot f (kept e)), (leftover e).
    split; [|reflexivity].
    rewrite M in A; [|rewrite kept_tidy by exact T; cbn [e_str]; rewrite Es; discriminate].
    rewrite kept_tidy in A |- * by exact T. rewrite Es in A |- *.
    unfold po_lines in A. cbn [e_cmts e_ctxt e_id e_plural e_id2 e_str e_strn strn_lines] in A.
    set (k := {| e_cmts := e_cmts e; e_strn := [] |}) in *.
    set (pre := e_cmts e ++ (if negb (is_empty (e_ctxt e)) then field_lines isp K_ctxt (e_ctxt e) else [])
       ++ field_lines isp K_id (e_id e) ++ (if e_plural e then field_lines isp K_id2 (e_id2 e) else [])
       ++ (if negb (is_empty (c :: st)) then field_lines isp K_str (c :: st) else [])).
    assert (Ap : acts SNone zero_entry (pre ++ [[]]) SStr k).
    { unfold pre. rewrite <- !app_assoc. exact A. }
    assert (Ap' : acts SNone zero_entry pre SStr k).
    { clear - Ap. revert Ap. generalize SNone zero_entry. induction pre as [|l pre IH]; intros s0 e0 H.
      - cbn [app] in H. inversion H as [|? ? ? s1 e1 ? ? ? L R]; subst. cbn in L. injection L as <- <-. exact R.
      - cbn [app] in H. inversion H as [|? ? ? s1 e1 ? ? ? L R]; subst. eapply A_cons; [exact L|]. apply IH, R. }
    assert (EL : po_lines isp e = pre ++ strn_lines isp 0 (y :: l) ++ [[]]).
    { unfold po_lines, pre. rewrite Es, En, <- !app_assoc. reflexivity. }
    rewrite EL, <- !app_assoc, (acts_mach _ _ _ _ _ _ _ _ Ap').
    destruct (split_lines_cons y) as (p & r & Ey).
    assert (Eh : exists t, strn_lines isp 0 (y :: l) = (K_strn 0 ++ SP :: GoQuote.quote isp p) :: t).
    { cbn [strn_lines]. unfold field_lines. rewrite Ey. eexists. reflexivity. }
    destruct Eh as (t & Eh).
    pose proof (acts_strn isp (y :: l) SNone zero_entry ltac:(discriminate)) as AS.
    cbn [zero_entry e_strn length] in AS.
    transitivity (mach pot (addif pot f k) SNone zero_entry (strn_lines isp 0 (y :: l) ++ [[]] ++ x)).
    + rewrite Eh. cbn [app]. apply mach_nil_start, unget_strn. reflexivity.
    + rewrite (acts_mach _ _ _ _ _ _ _ _ AS). replace (leftover e) with (add_strn zero_entry (y :: l)); [reflexivity|].
      unfold leftover, add_strn. cbn. rewrite En. reflexivity.
Qed.
Lemma mach_all pot : forall es f s e, finished s -> (forall x, In x es -> tidied x) ->
  mach pot f s e (concat (map (po_lines isp) es) ++ [[]])
  = PoOk (fold_left (addif pot) (concat (map parts es)) (addif pot f e)).
Proof.
  induction es as [|x es IH]; intros f s e F H; [reflexivity|].
  cbn [map concat]. rewrite <- app_assoc.
  destruct (mach_parts pot x (H x (or_introl eq_refl))) as (s1 & F1 & A1).
  destruct (head_start isp x ((if e_plural x then field_lines isp K_id2 (e_id2 x) else [])
     ++ (if negb (is_empty (e_str x)) then field_lines isp K_str (e_str x) else []) ++ strn_lines isp 0 (e_strn x) ++ [[]])
     (proj1 (H x (or_introl eq_refl)))) as (l & r & E & W & St).
  change (po_lines isp x = l :: r) in E.
  assert (U : mach pot f s e (po_lines isp x ++ concat (map (po_lines isp) es) ++ [[]])
     = mach pot (addif pot f e) SNone zero_entry (po_lines isp x ++ concat (map (po_lines isp) es) ++ [[]])).
  { rewrite E. cbn [app]. apply mach_nil_start, start_unget; assumption. }
  rewrite U. destruct (A1 (addif pot f e) (concat (map (po_lines isp) es) ++ [[]])) as (g & e' & M & Q).
  rewrite M, IH; [|exact F1|intros y Hy; apply H; right; exact Hy]. rewrite Q, fold_left_app. reflexivity.
Qed.
Lemma read_parts pot es : es <> [] -> (forall e c, In e es -> In c (e_cmts e) -> harmless c) ->
  read_po_ pot (concat (map (po_entry isp) es)) = PoOk (fold_left (addif pot) (concat (map parts es)) new_file).
Proof.
  intros Ne H. rewrite po_text_tidy.
  rewrite read_tidy; [|apply po_lines_bare|apply po_bare_clean|apply po_bare_tidy|apply po_lines_ne|exact Ne|exact H].
  assert (T : forall x, In x (map tidy es) -> tidied x).
  { intros x Hx. apply in_map_iff in Hx as (e & <- & He). split.
    - apply comment_lines_ok. intros c. apply H, He.
    - cbn [tidy e_plural e_id2]. destruct (e_plural e); auto. }
  assert (Eq : concat (map parts es) = concat (map parts (map tidy es))).
  { rewrite map_map. f_equal. apply map_ext_in. intros e He. unfold parts.
    change (leftovers (tidy e)) with (leftovers e). f_equal.
    unfold kept, tidy. cbn [e_cmts e_ctxt e_id e_plural e_id2 e_str e_strn]. f_equal.
    - symmetry. apply comment_lines_id, comment_lines_ok. intros c. apply H, He.
    - destruct (e_plural e); reflexivity. }
  rewrite Eq. assert (Ne' : map tidy es <> []) by (destruct es; [congruence|discriminate]).
  revert T Ne'. generalize (map tidy es) as ts. clear. intros ts T Ne. destruct ts as [|x ts]; [congruence|].
  rewrite concat_text. rewrite read_po_mach by (apply text_cons_ne, po_lines_ne).
  rewrite <- (app_nil_r (text_of _)). rewrite lines_text. change (po_lines_of []) with [@nil Ascii.ascii].
  rewrite lines_clean.
  2:{ intros y Hy. apply in_concat in Hy as (ls & Hl & Hy). apply in_map_iff in Hl as (e & <- & He).
      eapply po_lines_clean; [apply (T e He)|exact Hy]. }
  cbn [map concat]. rewrite <- app_assoc.
  destruct (mach_parts pot x (T x (or_introl eq_refl))) as (s1 & F1 & A1).
  destruct (A1 new_file (concat (map (po_lines isp) ts) ++ [[]])) as (g & e' & M & Q).
  rewrite M, mach_all; [|exact F1|intros y Hy; apply T; right; exact Hy]. rewrite Q, fold_left_app. reflexivity.
Qed.
Lemma read_po_parts es : es <> [] -> (forall e c, In e es -> In c (e_cmts e) -> harmless c) ->
  read_po (concat (map (po_entry isp) es)) = PoOk (fold_left (addif false) (concat (map parts es)) new_file).
Proof. exact (read_parts false es). Qed.
End A.

(** ** Catalogs *)
Lemma leftovers_both e x : In x (leftovers e) <-> both e /\ x = leftover e.
Proof.
  unfold leftovers, both. destruct (e_str e) as [|c st], (e_strn e) as [|y l]; cbn [In].
  - split; [intros []|intros [[H _] _]; congruence].
  - split; [intros []|intros [[H _] _]; congruence].
  - split; [intros []|intros [[_ H] _]; congruence].
  - split; [intros [<-|[]]; repeat split; discriminate|intros [_ ->]; left; reflexivity].
Qed.
Lemma both_dec e : both e \/ ~ both e.
Proof. unfold both. destruct (e_str e), (e_strn e); try (right; intros [? ?]; congruence). left. split; discriminate. Qed.
Lemma kept_translated e : translated (kept e) <-> translated e.
Proof.
  unfold translated. cbn [kept e_str e_strn]. destruct (e_str e) as [|c t]; [tauto|]. split; intros _; left; discriminate.
Qed.
Lemma parts_in es x : In x (concat (map parts es)) <-> exists e, In e es /\ (x = kept e \/ both e /\ x = leftover e).
Proof.
  rewrite in_concat. split.
  - intros (ls & Hl & Hx). apply in_map_iff in Hl as (e & <- & He). exists e. split; [exact He|].
    destruct Hx as [<-|Hx]; [left; reflexivity|right; apply leftovers_both, Hx].
  - intros (e & He & Hx). exists (parts e). split; [apply in_map, He|]. unfold parts.
    destruct Hx as [->|Hx]; [left; reflexivity|right; apply leftovers_both, Hx].
Qed.
Lemma sorted_split l a e b x : sorted_by_key l -> l = a ++ e :: b -> In x a -> bltb (sort_key e) (sort_key x) = false.
Proof.
  intros Hl ->. induction a as [|y a IH]; cbn [app In]; [intros []|]. cbn [app sorted_by_key] in Hl. destruct Hl as [H1 H2].
  intros [->|H]; [apply H1, in_or_app; right; left; reflexivity|apply IH; assumption].
Qed.
(** the part of an entry from which a piece of the parts of a list comes *)
Lemma parts_split es : forall a x b, concat (map parts es) = a ++ x :: b ->
  exists a' e b', es = a' ++ e :: b' /\
    ((x = kept e /\ a = concat (map parts a') /\ b = leftovers e ++ concat (map parts b'))
     \/ (both e /\ x = leftover e /\ a = concat (map parts a') ++ [kept e] /\ b = concat (map parts b'))).
Proof.
  induction es as [|e es IH]; intros a x b E; [destruct a; discriminate|].
  cbn [map concat] in E. unfold parts at 1 in E. cbn [app] in E.
  destruct a as [|y a]; cbn [app] in E; injection E as E1 E2.
  - exists [], e, es. split; [reflexivity|]. left. repeat split; auto.
  - assert (C : (leftovers e = [] /\ concat (map parts es) = a ++ x :: b)
       \/ (both e /\ leftovers e = [leftover e] /\ leftover e :: concat (map parts es) = a ++ x :: b)).
    { unfold leftovers in *. unfold both. destruct (e_str e), (e_strn e); auto. right. repeat split; auto; discriminate. }
    destruct C as [[L C]|(Bo & L & C)].
    + destruct (IH _ _ _ C) as (a' & e0 & b' & -> & D). exists (e :: a'), e0, b'. split; [reflexivity|].
      assert (Ea : forall u, a = concat (map parts a') ++ u -> y :: a = concat (map parts (e :: a')) ++ u).
      { intros u ->. cbn [map concat]. rewrite <- E1. unfold parts at 2. rewrite L. reflexivity. }
      destruct D as [(D1 & D2 & D3)|(D0 & D1 & D2 & D3)].
      * left. split; [exact D1|]. split; [|exact D3]. specialize (Ea []). rewrite !app_nil_r in Ea. apply Ea, D2.
      * right. split; [exact D0|]. split; [exact D1|]. split; [apply Ea, D2|exact D3].
    + destruct a as [|z a]; cbn [app] in C; injection C as C1 C2.
      * exists [], e, es. split; [reflexivity|]. right. rewrite <- E1, <- C1, <- C2. repeat split; auto; apply Bo.
      * destruct (IH _ _ _ C2) as (a' & e0 & b' & -> & D). exists (e :: a'), e0, b'. split; [reflexivity|].
        assert (Ea : forall u, a = concat (map parts a') ++ u -> y :: z :: a = concat (map parts (e :: a')) ++ u).
        { intros u ->. cbn [map concat]. rewrite <- E1, <- C1. unfold parts at 2. rewrite L. reflexivity. }
        destruct D as [(D1 & D2 & D3)|(D0 & D1 & D2 & D3)].
        -- left. split; [exact D1|]. split; [|exact D3]. specialize (Ea []). rewrite !app_nil_r in Ea. apply Ea, D2.
        -- right. split; [exact D0|]. split; [exact D1|]. split; [apply Ea, D2|exact D3].
Qed.
Theorem po_any isp f out : filed f ->
  (forall e c, In e (vals (f_entries f)) -> In c (e_cmts e) -> harmless c) ->
  f_entries f <> [] -> saves_po isp f out ->
  exists f', read_po out = PoOk f' /\ filed f'
    /\ (forall k e', k <> key [] [] ->
          (mget k (f_entries f') = Some e' <-> exists e, mget k (f_entries f) = Some e /\ translated e /\ e' = kept e))
    /\ match mget (key [] []) (f_entries f') with
       | Some e' => header_after f e'
       | None => (forall x, In x (vals (f_entries f)) -> ~ both x)
                 /\ forall h, mget (key [] []) (f_entries f) = Some h -> ~ translated h
       end.
Proof.
  intros F G Hne (l & [P St] & ->).
  assert (Gl : forall e c, In e l -> In c (e_cmts e) -> harmless c) by (intros e c He; apply G, (Permutation_in e P), He).
  assert (Nl : l <> []).
  { intros ->. apply Permutation_nil in P. unfold vals in P. apply map_eq_nil in P. congruence. }
  pose proof (read_po_parts isp l Nl Gl) as R. eexists. split; [exact R|].
  split; [apply built_filed, (read_built false _ _ R)|].
  assert (Il : forall e, In e l <-> mget (e_key e) (f_entries f) = Some e).
  { intros e. rewrite <- filed_in by exact F. split; apply Permutation_in; [exact P|apply Permutation_sym, P]. }
  assert (Iv : forall e, In e (vals (f_entries f)) <-> In e l).
  { intros e. split; apply Permutation_in; [apply Permutation_sym, P|exact P]. }
  split.
  - intros k e' Nk. pose proof (fold_addif_last (concat (map parts l)) k) as H.
    destruct (mget k (f_entries (fold_left (addif false) (concat (map parts l)) new_file))) as [e1|].
    + destruct H as (a & b & E & K & T & _).
      assert (I1 : In e1 (concat (map parts l))) by (rewrite E; apply in_or_app; right; left; reflexivity).
      apply parts_in in I1 as (e & He & [-> |[_ ->]]); [|exfalso; apply Nk; rewrite <- K; reflexivity].
      change (e_key (kept e)) with (e_key e) in K. subst k. apply Il in He. split.
      * intros [= <-]. exists e. split; [exact He|]. split; [apply kept_translated, T|reflexivity].
      * intros (e2 & E2 & _ & ->). rewrite He in E2. injection E2 as <-. reflexivity.
    + split; [discriminate|]. intros (e & He & T & ->). exfalso. pose proof (filed_get _ _ _ F He) as ->. apply (H (kept e)).
      * apply parts_in. exists e. split; [apply Il, He|left; reflexivity].
      * reflexivity.
      * apply kept_translated, T.
  - pose proof (fold_addif_last (concat (map parts l)) (key [] [])) as H.
    destruct (mget (key [] []) (f_entries (fold_left (addif false) (concat (map parts l)) new_file))) as [e1|].
    + destruct H as (a & b & E & K & T & N). destruct (parts_split _ _ _ _ E) as (a' & e & b' & El & D).
      assert (Nb : forall x, In x b' -> ~ both x).
      { intros x Hx Bx. apply (N (leftover x)).
        - assert (In (leftover x) (concat (map parts b'))) by (apply parts_in; exists x; split; [exact Hx|right; auto]).
          destruct D as [(_ & _ & ->)|(_ & _ & _ & ->)]; [apply in_or_app; right; assumption|assumption].
        - reflexivity.
        - right. apply Bx. }
      destruct D as [(-> & _ & D)|(Be & -> & _ & D)].
      * right. exists e. change (e_key (kept e)) with (e_key e) in K.
        assert (He : In e l) by (rewrite El; apply in_or_app; right; left; reflexivity).
        assert (Ne : ~ both e).
        { intros Be. apply (N (leftover e)); [|reflexivity|right; apply Be]. rewrite D. apply in_or_app; left.
          apply leftovers_both. auto. }
        split; [rewrite <- K; apply Il, He|]. split; [apply kept_translated, T|]. split; [exact Ne|].
        split; [reflexivity|]. intros x Hx Bx. apply Iv in Hx. rewrite El in Hx.
        apply in_app_or in Hx as [Hx|[<-|Hx]]; [|contradiction|exfalso; exact (Nb x Hx Bx)].
        apply (sorted_header l a' e b'); [exact St|exact El| |exact Hx].
        clear - K. unfold e_key, key in K. apply (f_equal (@length _)) in K. rewrite app_length in K. cbn [length app] in K.
        destruct (e_id e); [reflexivity|cbn [length] in K; lia].
      * left. exists e. split; [apply Iv; rewrite El; apply in_or_app; right; left; reflexivity|].
        split; [exact Be|]. split; [reflexivity|]. intros x Hx Bx. apply Iv in Hx. rewrite El in Hx.
        apply in_app_or in Hx as [Hx|[<-|Hx]]; [|apply bltb_irrefl|exfalso; exact (Nb x Hx Bx)].
        eapply sorted_split; eassumption.
    + split.
      * intros x Hx Bx. apply (H (leftover x)); [|reflexivity|right; apply Bx].
        apply parts_in. exists x. split; [apply Iv, Hx|right; auto].
      * intros h Eh Th. pose proof (filed_get _ _ _ F Eh) as K. apply (H (kept h)).
        -- apply parts_in. exists h. split; [apply Il; rewrite <- K; exact Eh|left; reflexivity].
        -- symmetry. exact K.
        -- apply kept_translated, Th.
Qed.
Lemma kept_po_ok e : (forall c, In c (e_cmts e) -> harmless c) -> (kept e = e <-> po_ok e).
Proof.
  intros G. split.
  - intros E. split; [|split].
    + assert (C : comment_lines (e_cmts e) = e_cmts e) by exact (f_equal e_cmts E).
      rewrite <- C. apply comment_lines_ok, G.
    + pose proof (f_equal e_id2 E) as I. cbn [kept e_id2] in I. destruct (e_plural e); auto.
    + pose proof (f_equal e_strn E) as I. cbn [kept e_strn] in I. destruct (e_str e); auto.
  - intros (C & I & T). rewrite kept_tidy by (split; assumption). 
    transitivity {| e_cmts := e_cmts e; e_ctxt := e_ctxt e; e_id := e_id e; e_plural := e_plural e;
      e_id2 := e_id2 e; e_str := e_str e; e_strn := e_strn e |}; [|apply entry_eta].
    f_equal. destruct T as [->|T]; [reflexivity|]. rewrite T. destruct (e_str e); reflexivity.
Qed.
Theorem po_round_trip_iff isp f out : filed f ->
  (forall e c, In e (vals (f_entries f)) -> In c (e_cmts e) -> harmless c) ->
  f_entries f <> [] -> saves_po isp f out ->
  ((exists f', read_po out = PoOk f' /\
      forall k e, mget k (f_entries f') = Some e <-> mget k (f_entries f) = Some e /\ translated e)
   <-> forall e, In e (vals (f_entries f)) -> translated e -> po_ok e).
Proof.
  intros F G Hne Sv. destruct (po_any isp f out F G Hne Sv) as (f' & R & _ & K & H). split.
  - intros (f1 & R1 & Q) e He Te. rewrite R in R1. injection R1 as <-.
    pose proof (proj1 (filed_in f e F) He) as Ee. pose proof (proj2 (Q _ _) (conj Ee Te)) as Er.
    destruct (bytes_dec (e_key e) (key [] [])) as [E0|N0].
    + rewrite <- E0, Er in H. destruct H as [(x & _ & _ & -> & _)|(h & Eh & _ & _ & -> & _)].
      * split; [intros c []|]. split; [right; reflexivity|left; reflexivity].
      * rewrite <- E0 in Eh. change (e_key (kept h)) with (e_key h) in Eh, E0, Er, Ee, He.
        rewrite Ee in Eh. injection Eh as Eh. apply kept_po_ok; [intros c; apply G, He|]. rewrite Eh. exact Eh.
    + apply K in Er; [|exact N0]. destruct Er as (e2 & E2 & _ & Ek). rewrite Ee in E2. injection E2 as <-.
      apply kept_po_ok; [intros c; apply G, He|]. symmetry. exact Ek.
  - intros Ok. exists f'. split; [exact R|].
    assert (NB : forall x, In x (vals (f_entries f)) -> ~ both x).
    { intros x Hx [B1 B2]. destruct (Ok x Hx (or_introl B1)) as (_ & _ & [E|E]); contradiction. }
    assert (KE : forall e, In e (vals (f_entries f)) -> translated e -> kept e = e).
    { intros e He Te. apply kept_po_ok; [intros c; apply G, He|apply Ok; assumption]. }
    intros k e. destruct (bytes_dec k (key [] [])) as [->|N0].
    + destruct (mget (key [] []) (f_entries f')) as [e1|].
      * destruct H as [(x & Hx & Bx & _)|(h & Eh & Th & _ & -> & _)]; [exfalso; exact (NB x Hx Bx)|].
        assert (Hh : In h (vals (f_entries f))) by (apply filed_in; [exact F|]; rewrite <- (filed_get _ _ _ F Eh); exact Eh).
        rewrite (KE h Hh Th). split; [intros [= <-]; auto|intros [E _]; congruence].
      * destruct H as [_ H]. split; [discriminate|]. intros [E T]. exfalso. exact (H e E T).
    + rewrite K by exact N0. split.
      * intros (e1 & E1 & T1 & ->).
        assert (He : In e1 (vals (f_entries f))) by (apply filed_in; [exact F|]; rewrite <- (filed_get _ _ _ F E1); exact E1).
        rewrite (KE e1 He T1). auto.
      * intros [E T]. exists e. split; [exact E|]. split; [exact T|]. symmetry. apply KE; [|exact T].
        apply filed_in; [exact F|]. rewrite <- (filed_get _ _ _ F E). exact E.
Qed.

(** ** Templates *)
Theorem pot_any isp f out : filed f ->
  (forall e c, In e (vals (f_entries f)) -> In c (e_cmts e) -> harmless c) ->
  f_entries f <> [] -> saves_pot isp f out ->
  exists f', read_pot out = PoOk f' /\ filed f' /\
    forall k e', mget k (f_entries f') = Some e' <-> exists e, mget k (f_entries f) = Some e /\ e' = kept_template e.
Proof.
  intros F G Hne (l & [P St] & ->).
  assert (Gl : forall e c, In e l -> In c (e_cmts e) -> harmless c) by (intros e c He; apply G, (Permutation_in e P), He).
  assert (Nl : l <> []).
  { intros ->. apply Permutation_nil in P. unfold vals in P. apply map_eq_nil in P. congruence. }
  assert (R : read_pot (concat (map (pot_entry isp) l)) = PoOk (fold_left (addif true) (map kept_template l) new_file)).
  { rewrite (map_ext _ _ (pot_entry_lines isp)). unfold read_pot.
    rewrite read_tidy; [|apply pot_lines_bare|apply pot_bare_clean|apply pot_bare_tidy|apply pot_lines_ne|exact Nl|exact Gl].
    rewrite <- (map_ext _ _ (pot_entry_lines isp)). rewrite <- (map_map tidy template_of).
    apply read_pot_text; [destruct l; [congruence|discriminate]|].
    intros x Hx. apply in_map_iff in Hx as (e & <- & He). split.
    - apply comment_lines_ok. intros c. apply Gl, He.
    - cbn [tidy e_plural e_id2]. destruct (e_plural e); auto. }
  eexists. split; [exact R|]. split; [apply built_filed, (read_built true _ _ R)|]. intros k e'.
  assert (KT : forall e, e_key (kept_template e) = e_key e) by reflexivity.
  pose proof (fold_addif_all (map kept_template l) k) as H. split.
  - intros E. rewrite E in H. destruct H as (I & K). apply in_map_iff in I as (e & <- & I). exists e. split; [|reflexivity].
    rewrite <- K, KT. apply filed_in; [exact F|]. apply (Permutation_in e P), I.
  - intros (e & E & ->). pose proof (filed_get _ _ _ F E) as ->. apply filed_in in E; [|exact F].
    apply (Permutation_in e (Permutation_sym P)) in E as El.
    destruct (mget (e_key e) (f_entries (fold_left (addif true) (map kept_template l) new_file))) as [e'|].
    + destruct H as (I & K). apply in_map_iff in I as (x & <- & I). do 2 f_equal.
      apply (Permutation_in x P) in I. apply filed_in in I; [|exact F]. apply filed_in in E; [|exact F].
      rewrite KT in K. rewrite K in I. congruence.
    + exfalso. apply (H (kept_template e)); [apply in_map, El|apply KT].
Qed.
