(** The beginning of a saved .po file. *)
From Coq Require Import Lia.
From Verif Require Import GoStr GoStrFacts TrimFacts GoQuote GoQuoteFacts GoMap GoMapFacts FileModel FileFacts
  WrapModel   PoModel PoSpec PoReadFacts PoSameFacts PoWriteFacts PoCatalogFacts BlankSpec BlankFacts LitSpec LitFacts
  PoGramSpec PoGramFacts PoAnyFacts CutSpec CutFacts.

(** ** Where a text is cut *)
Lemma split_last x : forall pre t, split_byte NL x = pre ++ [t] -> exists w, x = w ++ t /\ line_start w /\ ~ In NL t
  /\ (pre = [] -> w = []).
Proof.
  induction x as [|c x IH]; intros pre t; cbn [split_byte].
  - intros E. exists []. destruct pre as [|h pre]; [|destruct pre; discriminate]. injection E as <-.
    split; [reflexivity|]. split; [left; reflexivity|]. split; [intros []|reflexivity].
  - destruct (Ascii.eqb_spec c NL) as [->|N].
    + destruct pre as [|h pre].
      * intros E. injection E as _ E. destruct (split_first x) as (z & post & E'). rewrite E' in E. discriminate.
      * intros E. injection E as _ E. destruct (IH _ _ E) as (w & -> & L & Nt & _).
        exists (NL :: w). split; [reflexivity|]. split; [|split; [exact Nt|discriminate]].
        right. destruct L as [-> |(w' & ->)]; [exists []; reflexivity|exists (NL :: w'); reflexivity].
    + destruct (split_byte NL x) as [|h r] eqn:E0; [destruct (split_first x) as (z & post & E'); congruence|].
      destruct pre as [|h' pre].
      * intros E. injection E as <- ->. destruct (IH [] h eq_refl) as (w & Ex & _ & Nt & Hw). rewrite (Hw eq_refl) in Ex. cbn [app] in Ex. subst x.
        exists []. split; [reflexivity|]. split; [left; reflexivity|]. split; [|reflexivity]. intros [H|H]; [congruence|auto].
      * intros E. injection E as <- ->. destruct (IH (h :: pre) t eq_refl) as (w & -> & L & Nt & _).
        exists (c :: w). split; [reflexivity|]. split; [|split; [exact Nt|discriminate]].
        destruct L as [-> |(w' & ->)]; [|right; exists (c :: w'); reflexivity].
        exfalso. rewrite app_nil_l in E0. rewrite split_byte_no in E0 by exact Nt. destruct pre; discriminate.
Qed.
Lemma split_head y post : split_byte NL y = [] :: post -> y = [] \/ exists y', y = NL :: y'.
Proof.
  destruct y as [|c y]; [auto|]. cbn [split_byte]. destruct (Ascii.eqb_spec c NL) as [->|N]; [eauto|].
  destruct (split_byte NL y); discriminate.
Qed.

(** ** Cuts that are accepted, in any file *)
Lemma read_unended x f : x <> [] -> read_po (x ++ [NL]) = PoOk f -> exists fx, read_po x = PoOk fx.
Proof.
  intros N H. apply read_run in H as (p & s & e & R & _); [|destruct x; discriminate].
  rewrite <- (app_nil_r (x ++ [NL])), lines_nl, run_app in R.
  destruct (run SNone zero_entry (po_lines_of x)) as [[[p' s'] e']|] eqn:E; [|discriminate].
  eexists. apply read_run; [exact N|]. eauto 6.
Qed.
Lemma step_cmt s e t : exists r, step s e (P_cmt ++ t) = Some r.
Proof. unfold step. rewrite !la_cmt. destruct (negb (st_eqb s SNone)); [|eauto]. cbn. eauto. Qed.
Lemma cut_comment w c y f : line_start w -> ~ In NL c ->
  read_po ((w ++ B "#" ++ c) ++ y) = PoOk f -> exists fx, read_po (w ++ B "#" ++ c) = PoOk fx.
Proof.
  intros L Nc H.
  assert (R0 : exists r, run SNone zero_entry (removelast (po_lines_of w)) = Some r /\ po_lines_of (w ++ B "#" ++ c) = removelast (po_lines_of w) ++ po_lines_of (B "#" ++ c)).
  { destruct L as [-> |(w' & ->)].
    - cbn [app]. change (removelast (po_lines_of [])) with (@nil bytes). cbn [run app]. eauto.
    - rewrite lines_nl. rewrite <- (app_nil_r (w' ++ [NL])), lines_nl. change (po_lines_of []) with ([[]] : list bytes).
      rewrite removelast_last. split with (x := match run SNone zero_entry (po_lines_of w') with Some r => r | None => ([], SNone, zero_entry) end).
      split; [|reflexivity].
      apply read_run in H as (p & s & e & R & _); [|destruct w'; discriminate].
      rewrite <- !app_assoc in R. rewrite app_assoc, lines_nl, run_app in R.
      destruct (run SNone zero_entry (po_lines_of w')) as [r|]; [reflexivity|discriminate]. }
  destruct R0 as ([[p s] e] & R0 & E0).
  assert (po_lines_of (B "#" ++ c) = [P_cmt ++ remove_byte CR c]) as Ec.
  { unfold po_lines_of. change (remove_byte CR (B "#" ++ c)) with (P_cmt ++ remove_byte CR c). apply split_byte_no.
    intros I. apply in_app_or in I as [I|I]; [destruct I as [I|[]]; discriminate I|].
    apply filter_In in I as [I _]. auto. }
  destruct (step_cmt s e (remove_byte CR c)) as ([[p1 s1] e1] & E1).
  eexists. apply read_run; [destruct w; discriminate|]. rewrite E0, Ec, run_app, R0. cbn [run]. rewrite E1. eauto 6.
Qed.

(** ** Cuts that are refused *)
Definition quot (c : ascii) : Prop := c = DQ \/ c = SQ \/ c = BQ.
Lemma first_quote (a b r r' : bytes) c c' : (forall x, In x a -> ~ quot x) -> (forall x, In x b -> ~ quot x) -> quot c -> quot c' ->
  a ++ c :: r = b ++ c' :: r' -> a = b /\ c :: r = c' :: r'.
Proof.
  revert b. induction a as [|x a IH]; intros [|y b] Ha Hb Qc Qc' E; cbn [app] in E.
  - auto.
  - injection E as -> _. destruct (Hb y (or_introl eq_refl) Qc).
  - injection E as -> _. destruct (Ha c' (or_introl eq_refl) Qc').
  - injection E as -> E. destruct (IH b) as [-> ->]; auto; intros z I; [apply Ha|apply Hb]; right; exact I.
Qed.
Lemma blanks_quot a x : blanks a -> In x a -> ~ quot x.
Proof.
  intros H. induction H as [|w s W H IH]; [intros []|]. intros I. apply in_app_or in I as [I|I]; [|auto].
  blank_cases W; vm_compute in I; repeat (destruct I as [<-|I]; [intros [Q|[Q|Q]]; discriminate Q|]); destruct I.
Qed.
Lemma keys_quot : forall k, In k [K_ctxt; K_id; K_id2; K_str; P_ctxt; P_id; P_id2; P_str; []] -> forall x, In x k -> ~ quot x.
Proof.
  intros k Hk x Hx. vm_compute in Hk.
  repeat (destruct Hk as [<-|Hk]; [vm_compute in Hx; repeat (destruct Hx as [<-|Hx]; [intros [Q|[Q|Q]]; discriminate Q|]); destruct Hx|]).
  destruct Hk.
Qed.
Lemma strn_quot i x : In x (K_strn i) -> ~ quot x.
Proof.
  intros H. unfold K_strn in H. apply in_app_or in H as [H|H]; [|apply in_app_or in H as [H|H]].
  - vm_compute in H. repeat (destruct H as [<-|H]; [intros [Q|[Q|Q]]; discriminate Q|]); destruct H.
  - pose proof (dec_digits (N.of_nat i) x H) as D. intros [-> |[-> | ->]]; discriminate D.
  - vm_compute in H. destruct H as [<-|[]]. intros [Q|[Q|Q]]; discriminate Q.
Qed.
Lemma sp_quot k : (forall x, In x k -> ~ quot x) -> forall x, In x (k ++ [SP]) -> ~ quot x.
Proof. intros H x I. apply in_app_or in I as [I|[<-|[]]]; [auto|]. intros [Q|[Q|Q]]; discriminate Q. Qed.
(** a string in a line: no accepted line ends inside *)
Lemma string_line s e t z k q o : (forall x, In x k -> ~ quot x) -> literal q o -> (exists c m, k ++ q = c :: m /\ visible c /\ c <> "#"%char) ->
  t ++ z = k ++ q -> line_action s e t <> AErr -> line_action s e t <> AUnget -> t = [] \/ z = [].
Proof.
  intros Hk L (c & m & Ec & V & Nc) E NE NU. destruct t as [|c' t0]; [auto|]. right.
  assert (c' = c) as -> by (rewrite Ec in E; injection E as -> _; reflexivity).
  assert (D : exists p u, (forall x, In x p -> ~ quot x) /\ c :: t0 = p ++ u /\ exists d, spaced u d).
  { destruct (line_form s e _ NE) as [W|[(u & Eu)|[(p & u & F & Eu)|(u & Eu)]]].
    - unfold white in W. pose proof (not_blank c t0 V) as X. rewrite W in X. discriminate.
    - injection Eu as -> _. congruence.
    - exists p, u. rewrite Eu in NE, NU |- *.
      assert (X : forall k0, on_data (p ++ u) p k0 <> AErr -> exists d, spaced u d).
      { intros k0 Y. unfold on_data, remove_prefix_unquote in Y. rewrite trim_prefix_app in Y.
        destruct (unquote (trim_space u)) as [d|] eqn:U; [|congruence]. exists d. apply trim_spaced, U. }
      destruct F as [-> | [-> | [-> | [-> | ->]]]].
      + split; [apply keys_quot; cbn; tauto|]. split; [reflexivity|]. rewrite la_ctxt in *. destruct (negb _); [congruence|]. eapply X, NE.
      + split; [apply keys_quot; cbn; tauto|]. split; [reflexivity|]. rewrite la_id2 in *. destruct (equals_any _ _); [congruence|]. eapply X, NE.
      + split; [apply keys_quot; cbn; tauto|]. split; [reflexivity|]. rewrite la_id in *. destruct (equals_any _ _); [congruence|]. eapply X, NE.
      + split; [apply sp_quot, strn_quot|]. split; [reflexivity|]. rewrite la_strn in *. destruct (equals_any _ _); [congruence|]. eapply X, NE.
      + split; [apply keys_quot; cbn; tauto|]. split; [reflexivity|]. rewrite la_str in *. destruct (equals_any _ _); [congruence|]. eapply X, NE.
    - exists [], (DQ :: u). rewrite Eu in *. split; [intros x []|]. split; [reflexivity|].
      rewrite la_more in NE. unfold on_data, remove_prefix_unquote in NE. change (trim_prefix [] (DQ :: u)) with (DQ :: u) in NE.
      destruct (unquote (trim_space (DQ :: u))) as [d|] eqn:U; [|congruence]. exists d. apply trim_spaced, U. }
  destruct D as (p & u & Hp & Et & d & a & q' & b & -> & Ba & _ & L'). rewrite Et in E.
  destruct (literal_ends _ _ L) as (c1 & m1 & Q1 & E1). destruct (literal_ends _ _ L') as (c2 & m2 & Q2 & E2).
  assert ((p ++ a) ++ c2 :: (m2 ++ [c2]) ++ b ++ z = k ++ c1 :: m1 ++ [c1]) as E3.
  { rewrite <- E1, <- E, E2. rewrite <- !app_assoc. cbn [app]. rewrite <- !app_assoc. reflexivity. }
  apply first_quote in E3; [|intros x I; apply in_app_or in I as [I|I]; [auto|eapply blanks_quot; eassumption]|assumption..].
  destruct E3 as [_ E3]. rewrite <- E1 in E3. change (c2 :: (m2 ++ [c2]) ++ b ++ z) with ((c2 :: m2 ++ [c2]) ++ b ++ z) in E3.
  rewrite <- E2, <- (app_nil_r q) in E3. apply (literal_unique _ _ _ _ _ _ L' L) in E3 as [E3 _].
  apply app_eq_nil in E3. apply E3.
Qed.

Section S.
Variable isp : N -> bool.
Lemma quote_lit p : literal (quote isp p) p.
Proof. apply unquote_literal, unquote_quote. Qed.
Definition string_of (l : bytes) : Prop := exists k q o, l = k ++ q /\ (forall x, In x k -> ~ quot x) /\ literal q o
  /\ exists c m, k ++ q = c :: m /\ visible c /\ c <> "#"%char.
Lemma field_string k s l : (forall x, In x k -> ~ quot x) -> (exists k', k = "m"%char :: k') -> In l (field_lines isp k s) -> string_of l.
Proof.
  intros Hk (k' & Ek) I. unfold field_lines in I. destruct (split_lines s) as [|p r]; [destruct I|]. destruct I as [<-|I].
  - exists (k ++ [SP]), (quote isp p), p. split; [rewrite <- app_assoc; reflexivity|]. split; [apply sp_quot, Hk|].
    split; [apply quote_lit|]. rewrite Ek. eexists _, _. split; [reflexivity|]. split; [apply visible_m|discriminate].
  - apply in_map_iff in I as (p' & <- & _). exists [], (quote isp p'), p'. split; [reflexivity|]. split; [intros x []|].
    split; [apply quote_lit|]. eexists _, _. split; [reflexivity|]. split; [apply visible_dq|discriminate].
Qed.
Lemma strn_string v : forall i l, In l (strn_lines isp i v) -> string_of l.
Proof.
  induction v as [|s v IH]; intros i l; cbn [strn_lines]; [intros []|]. intros I. apply in_app_or in I as [I|I]; [|eapply IH, I].
  eapply field_string; [apply strn_quot| |exact I]. eexists. reflexivity.
Qed.
Lemma po_lines_kinds e l : po_ok e -> In l (po_lines isp e) -> l = [] \/ starts (B "#") l \/ string_of l.
Proof.
  intros (Hc & _) H. unfold po_lines in H.
  apply in_app_or in H as [H|H]; [right; left; apply (Hc l H)|].
  apply in_app_or in H as [H|H].
  { right; right. destruct (negb _) in H; [|destruct H]. eapply field_string; [| |exact H]; [apply keys_quot; cbn; tauto|eexists; reflexivity]. }
  apply in_app_or in H as [H|H].
  { right; right. eapply field_string; [| |exact H]; [apply keys_quot; cbn; tauto|eexists; reflexivity]. }
  apply in_app_or in H as [H|H].
  { right; right. destruct (e_plural e) in H; [|destruct H]. eapply field_string; [| |exact H]; [apply keys_quot; cbn; tauto|eexists; reflexivity]. }
  apply in_app_or in H as [H|H].
  { right; right. destruct (negb _) in H; [|destruct H]. eapply field_string; [| |exact H]; [apply keys_quot; cbn; tauto|eexists; reflexivity]. }
  apply in_app_or in H as [H|[<-|[]]]; [right; right; eapply strn_string, H|auto].
Qed.
Lemma step_string s e t z : string_of (t ++ z) -> step s e t <> None -> t = [] \/ z = [].
Proof.
  intros (k & q & o & E & Hk & L & V) H. unfold step in H.
  destruct (line_action s e t) as [s' e'| | |] eqn:A; try congruence.
  - apply (string_line s e t z k q o); auto; congruence.
  - destruct (line_action SNone zero_entry t) as [s' e'| | |] eqn:A0; try congruence.
    apply (string_line SNone zero_entry t z k q o); auto; congruence.
Qed.
Definition file_text (es : list entry) : bytes := concat (map (po_entry isp) es).
Lemma file_text_lines es : file_text es = text_of (concat (map (po_lines isp) es)).
Proof. unfold file_text. rewrite (map_ext _ _ (po_entry_lines isp)). apply concat_text. Qed.
Lemma file_clean es : (forall e, In e es -> po_ok e) -> forall l, In l (concat (map (po_lines isp) es)) -> clean l.
Proof.
  intros H l I. apply in_concat in I as (ls & Il & I). apply in_map_iff in Il as (e & <- & He).
  eapply po_lines_clean; [apply (H e He)|exact I].
Qed.
Lemma file_no_cr es : (forall e, In e es -> po_ok e) -> ~ In CR (file_text es).
Proof.
  intros H I. rewrite file_text_lines in I. apply in_text_of in I as [I|(l & Il & I)]; [discriminate|].
  apply (proj2 (file_clean es H l Il)), I.
Qed.
Lemma file_lines_text es b : (forall e, In e es -> po_ok e) ->
  po_lines_of (file_text es ++ b) = concat (map (po_lines isp) es) ++ po_lines_of b.
Proof. intros H. rewrite file_text_lines, lines_text, lines_clean; [reflexivity|]. apply file_clean, H. Qed.

(** ** Which cuts of a saved file are accepted *)
Theorem saved_accepted es x y : (forall e, In e es -> po_ok e) -> file_text es = x ++ y -> x <> [] ->
  (exists fx, read_po x = PoOk fx) <->
  line_start x \/ (y = [] \/ exists y', y = NL :: y') \/ exists w c, line_start w /\ x = w ++ B "#" ++ c /\ ~ In NL c.
Proof.
  intros G E N.
  assert (Ne : es <> []) by (intros ->; destruct x; [congruence|discriminate]).
  pose proof (read_po_text isp es Ne G) as R. fold (file_text es) in R. rewrite E in R. split.
  - intros (fx & Hx). apply read_run in Hx as (p & s & e & Rx & _); [|exact N].
    assert (Cx : ~ In CR x /\ ~ In CR y).
    { pose proof (file_no_cr es G) as C. rewrite E in C. split; intros I; apply C, in_or_app; auto. }
    destruct (split_cut x y) as (pre & t & z & post & L1 & L2 & L3).
    unfold po_lines_of in Rx. rewrite remove_byte_no in Rx by apply Cx. rewrite L1, run_app in Rx.
    destruct (run SNone zero_entry pre) as [[[p0 s0] e0]|]; [|discriminate]. cbn [run] in Rx.
    assert (S0 : step s0 e0 t <> None) by (destruct (step s0 e0 t); [discriminate|discriminate Rx]).
    assert (It : In (t ++ z) (concat (map (po_lines isp) es) ++ [[]])).
    { change ([[]] : list bytes) with (po_lines_of []). rewrite <- file_lines_text by exact G. rewrite app_nil_r, E.
      unfold po_lines_of. rewrite remove_byte_app, !remove_byte_no by apply Cx. rewrite L2. apply in_or_app. right; left; reflexivity. }
    destruct (split_last _ _ _ L1) as (w & Ex & Lw & Nt & _).
    assert (K : t ++ z = [] \/ starts (B "#") (t ++ z) \/ string_of (t ++ z)).
    { apply in_app_or in It as [I|[I|[]]]; [|left; auto]. apply in_concat in I as (ls & Il & I).
      apply in_map_iff in Il as (e1 & <- & He). apply (po_lines_kinds e1); [apply G, He|exact I]. }
    assert (D : t = [] \/ z = [] \/ starts (B "#") t).
    { destruct K as [K|[K|K]].
      - left. apply app_eq_nil in K. apply K.
      - destruct t as [|c t]; [auto|]. right; right. destruct K as (u & K). injection K as -> _. exists t. reflexivity.
      - destruct (step_string _ _ _ _ K S0); auto. }
    destruct D as [-> |[-> |(c & ->)]].
    + left. rewrite Ex, app_nil_r. exact Lw.
    + right; left. apply (split_head _ _ L3).
    + right; right. exists w, c. split; [exact Lw|]. split; [exact Ex|]. intros I. apply Nt, in_or_app. auto.
  - intros [[-> |(x' & ->)]|[[-> |(y' & ->)]|(w & c & Lw & -> & Nc)]].
    + congruence.
    + eapply cut_lines, R.
    + rewrite app_nil_r in R. eauto.
    + replace (x ++ NL :: y') with ((x ++ [NL]) ++ y') in R by (rewrite <- app_assoc; reflexivity).
      destruct (cut_lines _ _ _ R) as (fx & Rx). apply (read_unended _ _ N Rx).
    + eapply cut_comment; eassumption.
Qed.

(** ** What is read *)
Lemma text_cut es : forall x y, file_text es = x ++ y -> x <> [] ->
  exists l1 e l2 x' y', es = l1 ++ e :: l2 /\ po_entry isp e = x' ++ y' /\ x = file_text l1 ++ x' /\ x' <> [].
Proof.
  induction es as [|e es IH]; intros x y E N.
  - destruct x; [congruence|discriminate].
  - change (file_text (e :: es)) with (po_entry isp e ++ file_text es) in E.
    apply app_cases in E as [(u & Ex & Ey)|(u & Nu & Ex & Ey)].
    + exists [], e, es, x, u. auto.
    + destruct (IH u y) as (l1 & e1 & l2 & x' & y' & -> & E1 & -> & Nx); [congruence|exact Nu|].
      exists (e :: l1), e1, l2, x', y'. split; [reflexivity|]. split; [exact E1|]. split; [|exact Nx].
      change (file_text (e :: l1)) with (po_entry isp e ++ file_text l1). rewrite Ex, <- app_assoc. reflexivity.
Qed.
(** the line a new entry begins with, or a part of it *)
Lemma head_part s e t z : finished s -> t <> [] -> (exists l, t ++ z = l /\ ~ white l /\ (starts (B "#") l \/ starts (B "msgctxt ") l \/ starts (B "msgid ") l)) ->
  line_action s e t = AErr \/ line_action s e t = AUnget.
Proof.
  intros F N (l & E & W & D).
  assert (K : starts (B "#") t \/ starts (B "msgctxt ") t \/ starts (B "msgid ") t \/ line_action s e t = AErr).
  { destruct D as [(u & ->)|[(u & ->)|(u & ->)]].
    - left. destruct t as [|c t]; [congruence|]. injection E as -> _. exists t. reflexivity.
    - apply app_cases in E as [(v & -> & _)|(v & Nv & E & _)]; [right; left; exists v; reflexivity|].
      do 3 right. do 8 (destruct t as [|? t]; [try congruence; injection E; intros; subst; reflexivity|]).
      exfalso. injection E; intros. destruct t; [|discriminate]. cbn in *. congruence.
    - apply app_cases in E as [(v & -> & _)|(v & Nv & E & _)]; [right; right; left; exists v; reflexivity|].
      do 3 right. do 6 (destruct t as [|? t]; [try congruence; injection E; intros; subst; reflexivity|]).
      exfalso. injection E; intros. destruct t; [|discriminate]. cbn in *. congruence. }
  destruct K as [K|[K|[K|K]]]; [right; apply start_unget; auto|right; apply start_unget; auto|right; apply start_unget; auto|auto].
  all: destruct K as (u & ->); unfold white; intros X.
  - pose proof (not_blank "#"%char u ltac:(vm_compute; auto)) as Y. cbn [B list_ascii_of_string app] in X. rewrite X in Y. discriminate.
  - pose proof (not_blank "m"%char (B "sgctxt " ++ u) visible_m) as Y. cbn [B list_ascii_of_string app] in X, Y. rewrite X in Y. discriminate.
  - pose proof (not_blank "m"%char (B "sgid " ++ u) visible_m) as Y. cbn [B list_ascii_of_string app] in X, Y. rewrite X in Y. discriminate.
Qed.
Lemma run_entries l : forall s e, finished s -> (forall x, In x l -> po_ok x) ->
  exists s1 e1 p, run s e (concat (map (po_lines isp) l)) = Some (p, s1, e1) /\ finished s1 /\ p ++ [e1] = e :: l.
Proof.
  induction l as [|a l IH]; intros s e F H; cbn [map concat].
  - exists s, e, []. auto.
  - destruct (acts_po isp a (H a (or_introl eq_refl))) as (s1 & F1 & A1).
    assert (Ha : po_ok a) by (apply H; left; reflexivity).
    destruct (head_start isp a ((if e_plural a then field_lines isp K_id2 (e_id2 a) else [])
      ++ (if negb (is_empty (e_str a)) then field_lines isp K_str (e_str a) else []) ++ strn_lines isp 0 (e_strn a) ++ [[]]) (proj1 Ha)) as (l0 & r & E & W & D).
    fold (po_lines isp a) in E.
    destruct (IH s1 a F1 (fun x Hx => H x (or_intror Hx))) as (s2 & e2 & p & R & F2 & P).
    exists s2, e2, (e :: p). split; [|split; [exact F2|cbn [app]; rewrite P; reflexivity]].
    rewrite run_app. apply run_acts in A1. rewrite E in A1 |- *. cbn [run] in A1 |- *.
    unfold step in A1 |- *. rewrite (start_unget s e l0 F W D). pose proof (no_unget zero_entry l0) as NU.
    destruct (line_action SNone zero_entry l0) as [s0 e0| | |]; [|congruence|discriminate..].
    destruct (run s0 e0 r) as [[[q s3] e3]|]; [|discriminate]. injection A1 as -> -> ->. rewrite R. reflexivity.
Qed.
Theorem saved_cut es x y fx : (forall e, In e es -> po_ok e) -> file_text es = x ++ y -> x <> [] -> read_po x = PoOk fx ->
  exists l1 e l2 x' y' e', es = l1 ++ e :: l2 /\ x = file_text l1 ++ x' /\ x' <> [] /\ po_entry isp e = x' ++ y'
    /\ fx = fold_left (addif false) (l1 ++ [e']) new_file /\ (translated e' -> shortened e' e).
Proof.
  intros G E N Hx. destruct (text_cut _ _ _ E N) as (l1 & e & l2 & x' & y' & -> & Ee & -> & Nx).
  assert (Ge : po_ok e) by (apply G, in_or_app; right; left; reflexivity).
  assert (G1 : forall a, In a l1 -> po_ok a) by (intros a Ha; apply G, in_or_app; auto).
  apply read_run in Hx as (p & s & e' & R & ->); [|exact N]. rewrite file_lines_text in R by exact G1.
  assert (Ce : ~ In CR (x' ++ y')).
  { pose proof (file_no_cr [e] ltac:(intros a [<-|[]]; exact Ge)) as C. unfold file_text in C. cbn [map concat] in C. rewrite app_nil_r, Ee in C. exact C. }
  assert (Cx : ~ In CR x' /\ ~ In CR y') by (split; intros I; apply Ce, in_or_app; auto).
  destruct (split_cut x' y') as (pre & t & z & post & L1 & L2 & _).
  assert (E1 : po_lines_of x' = pre ++ [t]) by (unfold po_lines_of; rewrite remove_byte_no by apply Cx; exact L1).
  assert (E2 : po_lines isp e ++ [[]] = pre ++ (t ++ z) :: post).
  { change ([[]] : list bytes) with (po_lines_of []).
    pose proof (file_lines_text [e] [] ltac:(intros a [<-|[]]; exact Ge)) as Q. unfold file_text in Q. cbn [map concat] in Q.
    rewrite !app_nil_r in Q. rewrite <- Q, Ee. unfold po_lines_of. rewrite remove_byte_no by exact Ce. exact L2. }
  destruct (acts_po isp e Ge) as (s1 & F1 & A1). apply run_acts in A1.
  assert (A2 : run SNone zero_entry (pre ++ (t ++ z) :: post) = Some ([], s1, e)).
  { rewrite <- E2, run_app, A1. cbn [run]. unfold step. rewrite white_action by reflexivity. reflexivity. }
  assert (X : exists s2 q, run SNone zero_entry (pre ++ [t]) = Some (q, s2, e') /\ p = l1 ++ q).
  { rewrite E1 in R. destruct l1 as [|a l1]; [exists s, p; auto|].
    cbn [map concat] in R. rewrite <- app_assoc, run_app in R.
    destruct (acts_po isp a (G1 a (or_introl eq_refl))) as (sa & Fa & Aa). apply run_acts in Aa. rewrite Aa in R. rewrite run_app in R.
    destruct (run_entries l1 sa a Fa (fun u Hu => G1 u (or_intror Hu))) as (s2 & e2 & p2 & R2 & F2 & P2). rewrite R2 in R.
    destruct (head_start isp e ((if e_plural e then field_lines isp K_id2 (e_id2 e) else [])
      ++ (if negb (is_empty (e_str e)) then field_lines isp K_str (e_str e) else []) ++ strn_lines isp 0 (e_strn e) ++ [[]]) (proj1 Ge)) as (l0 & r & E0 & W & D).
    fold (po_lines isp e) in E0.
    assert (H0 : exists t0 r0, pre ++ [t] = t0 :: r0 /\ (line_action s2 e2 t0 = AErr \/ line_action s2 e2 t0 = AUnget)).
    { rewrite E0 in E2. destruct pre as [|h pre]; cbn [app] in E2; injection E2 as E2 E3.
      - exists t, []. split; [reflexivity|]. apply head_part with (z := z); [exact F2| |exists l0; auto].
        destruct (split_last _ _ _ L1) as (w & Ew & _ & _ & Hw). rewrite (Hw eq_refl) in Ew. cbn [app] in Ew. congruence.
      - exists h, (pre ++ [t]). split; [reflexivity|]. right. subst h. apply start_unget; assumption. }
    destruct H0 as (t0 & r0 & Et & K). rewrite Et in R |- *. cbn [run] in R |- *. unfold step in R |- *.
    destruct K as [K|K]; rewrite K in R; [discriminate|]. pose proof (no_unget zero_entry t0) as NU.
    destruct (line_action SNone zero_entry t0) as [s0 e0| | |]; [|congruence|discriminate..].
    destruct (run s0 e0 r0) as [[[q s3] e3]|]; [|discriminate]. injection R as <- <- <-.
    exists s3, q. split; [reflexivity|]. cbn [app]. change (p2 ++ e2 :: q) with (p2 ++ [e2] ++ q). rewrite app_assoc, P2. reflexivity. }
  destruct X as (s2 & q & R2 & ->).
  destruct (run_cut _ _ _ _ _ _ _ _ _ _ _ _ grown_zero R2 A2) as (e3 & q' & Q & K).
  destruct q as [|? q]; [|destruct q; discriminate Q]. injection Q as -> _.
  exists l1, e3, l2, x', y', e'. rewrite app_nil_r. auto 8.
Qed.
End S.
