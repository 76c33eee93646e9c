(** What the writer produces, and reading it back. *)
From Coq Require Import Lia Permutation.
From Verif Require Import GoStr GoStrFacts TrimFacts GoQuote GoQuoteFacts GoMap GoMapFacts FileModel FileFacts
  WrapModel WrapFacts PoModel PoSpec PoReadFacts PoSameFacts.

(** ** Text and lines *)
Definition text_of (ls : list bytes) : bytes := concat (map (fun l => l ++ [NL]) ls).
Lemma text_of_app a b : text_of (a ++ b) = text_of a ++ text_of b.
Proof. unfold text_of. rewrite map_app, concat_app. reflexivity. Qed.
Lemma split_text ls : (forall l, In l ls -> ~ In NL l) -> split_byte NL (text_of ls) = ls ++ [[]].
Proof.
  induction ls as [|l r IH]; intros H; [reflexivity|].
  change (text_of (l :: r)) with ((l ++ [NL]) ++ text_of r). rewrite <- app_assoc. cbn [app].
  rewrite split_byte_app by (apply H; left; reflexivity). rewrite IH; [reflexivity|]. intros x Hx; apply H; right; exact Hx.
Qed.
Lemma in_text_of c ls : In c (text_of ls) -> c = NL \/ exists l, In l ls /\ In c l.
Proof.
  unfold text_of. rewrite in_concat. intros (x & Hx & Hc). apply in_map_iff in Hx as (l & <- & Hl).
  apply in_app_or in Hc as [Hc|[<-|[]]]; [right; eauto|left; reflexivity].
Qed.

Section W.
Variable isp : N -> bool.
Notation quote := (quote isp).

(** the lines of one field *)
Definition field_lines (k content : bytes) : list bytes :=
  match split_lines content with
  | [] => []
  | p :: r => (k ++ SP :: quote p) :: map quote r
  end.
Lemma write_string_lines k content : write_string isp k content = text_of (field_lines k content).
Proof.
  unfold write_string, field_lines. destruct (split_lines_cons content) as (p & r & ->).
  cbn [map concat text_of]. unfold text_of. cbn [map concat]. rewrite map_map.
  rewrite <- !app_assoc. reflexivity.
Qed.
Fixpoint strn_lines (i : nat) (l : list bytes) : list bytes :=
  match l with
  | [] => []
  | s :: r => field_lines (K_strn i) s ++ strn_lines (S i) r
  end.
Lemma write_strn_lines l : forall i, write_strn isp i l = text_of (strn_lines i l).
Proof.
  induction l as [|s r IH]; intros i; [reflexivity|]. cbn [write_strn strn_lines].
  rewrite text_of_app, write_string_lines, IH. reflexivity.
Qed.
Definition po_lines (e : entry) : list bytes :=
  e_cmts e
  ++ (if negb (is_empty (e_ctxt e)) then field_lines K_ctxt (e_ctxt e) else [])
  ++ field_lines K_id (e_id e)
  ++ (if e_plural e then field_lines K_id2 (e_id2 e) else [])
  ++ (if negb (is_empty (e_str e)) then field_lines K_str (e_str e) else [])
  ++ strn_lines 0 (e_strn e)
  ++ [[]].
Lemma po_entry_lines e : po_entry isp e = text_of (po_lines e).
Proof.
  unfold po_entry, po_lines. rewrite !text_of_app, write_strn_lines, !write_string_lines.
  change (write_cmts (e_cmts e)) with (text_of (e_cmts e)).
  destruct (negb (is_empty (e_ctxt e))), (e_plural e), (negb (is_empty (e_str e))); reflexivity.
Qed.
Definition pot_lines (e : entry) : list bytes :=
  e_cmts e
  ++ (if negb (is_empty (e_ctxt e)) then field_lines K_ctxt (e_ctxt e) else [])
  ++ field_lines K_id (e_id e)
  ++ (if negb (e_plural e) then
        (if is_empty (e_id e) then field_lines K_str (e_str e) else field_lines K_str [])
      else field_lines K_id2 (e_id2 e) ++ field_lines (K_strn 0) [] ++ field_lines (K_strn 1) [])
  ++ [[]].
Lemma pot_entry_lines e : pot_entry isp e = text_of (pot_lines e).
Proof.
  unfold pot_entry, pot_lines. rewrite !text_of_app, !write_string_lines.
  change (write_cmts (e_cmts e)) with (text_of (e_cmts e)).
  destruct (negb (is_empty (e_ctxt e))), (e_plural e), (is_empty (e_id e)); cbn [negb]; rewrite ?text_of_app; reflexivity.
Qed.

(** no line contains a line break *)
Definition clean (l : bytes) : Prop := ~ In NL l /\ ~ In CR l.
Lemma quote_clean_line s : clean (quote s).
Proof. split; intros H; apply quote_clean in H; vm_compute in H; destruct H as [H _]; apply H; reflexivity. Qed.
Definition plain_key (k : bytes) : Prop := forall c, In c k -> (0x20 < code c)%N.
Lemma field_clean k s l : plain_key k -> In l (field_lines k s) -> clean l.
Proof.
  intros Hk. unfold field_lines. destruct (split_lines s) as [|p r]; [intros []|].
  intros [<-|H]; [|apply in_map_iff in H as (x & <- & _); apply quote_clean_line].
  destruct (quote_clean_line p) as [Q1 Q2].
  split; intros H; apply in_app_or in H as [H|[H|H]]; try contradiction; try discriminate;
    apply Hk in H; vm_compute in H; discriminate.
Qed.
Lemma plain_keys : plain_key K_ctxt /\ plain_key K_id /\ plain_key K_id2 /\ plain_key K_str.
Proof.
  assert (P : forall k, forallb (fun c => (0x20 <? code c)%N) k = true -> plain_key k).
  { intros k H c Hc. rewrite forallb_forall in H. apply N.ltb_lt, H, Hc. }
  repeat split; apply P; vm_compute; reflexivity.
Qed.
Lemma plain_strn i : plain_key (K_strn i).
Proof.
  intros c H. unfold K_strn in H. apply in_app_or in H as [H|H]; [|apply in_app_or in H as [H|H]].
  - cbn in H. intuition; subst; vm_compute; reflexivity.
  - pose proof (dec_digits (N.of_nat i) c H) as D.
    unfold is_digit, in_range in D. apply andb_true_iff in D as [D _]. apply N.leb_le in D. lia.
  - cbn in H. intuition; subst; vm_compute; reflexivity.
Qed.
Lemma strn_clean l : forall i x, In x (strn_lines i l) -> clean x.
Proof.
  induction l as [|s r IH]; intros i x; cbn [strn_lines]; [intros []|].
  intros H. apply in_app_or in H as [H|H]; [|apply IH in H; exact H].
  eapply field_clean; [apply plain_strn|exact H].
Qed.
Lemma cmts_clean (l : list bytes) x : (forall c, In c l -> comment_ok c) -> In x l -> clean x.
Proof. intros H Hx. destruct (H x Hx) as (_ & H1 & H2). split; assumption. Qed.
Lemma po_lines_clean e x : (forall c, In c (e_cmts e) -> comment_ok c) -> In x (po_lines e) -> clean x.
Proof.
  intros Hc H. destruct plain_keys as (P1 & P2 & P3 & P4). unfold po_lines in H.
  repeat (apply in_app_or in H as [H|H]).
  - eapply cmts_clean; eassumption.
  - destruct (negb _) in H; [|destruct H]. eapply field_clean; [|exact H]; assumption.
  - eapply field_clean; [|exact H]; assumption.
  - destruct (e_plural e) in H; [|destruct H]. eapply field_clean; [|exact H]; assumption.
  - destruct (negb _) in H; [|destruct H]. eapply field_clean; [|exact H]; assumption.
  - eapply strn_clean, H.
  - destruct H as [<-|[]]. split; intros [].
Qed.
Lemma pot_lines_clean e x : (forall c, In c (e_cmts e) -> comment_ok c) -> In x (pot_lines e) -> clean x.
Proof.
  intros Hc H. destruct plain_keys as (P1 & P2 & P3 & P4). unfold pot_lines in H.
  apply in_app_or in H as [H|H]; [eapply cmts_clean; eassumption|].
  apply in_app_or in H as [H|H]; [destruct (negb _) in H; [|destruct H]; eapply field_clean; [|exact H]; assumption|].
  apply in_app_or in H as [H|H]; [eapply field_clean; [|exact H]; assumption|].
  apply in_app_or in H as [H|[<-|[]]]; [|split; intros []].
  destruct (negb _) in H.
  - destruct (is_empty (e_id e)) in H; (eapply field_clean; [|exact H]; assumption).
  - repeat (apply in_app_or in H as [H|H]); (eapply field_clean; [|exact H]); try assumption; apply plain_strn.
Qed.

(** ** Reading the lines of one entry *)
Inductive acts : pstate -> entry -> list bytes -> pstate -> entry -> Prop :=
| A_nil s e : acts s e [] s e
| A_cons s e l s1 e1 r s2 e2 : line_action s e l = ANext s1 e1 -> acts s1 e1 r s2 e2 -> acts s e (l :: r) s2 e2.
Lemma acts_app s e a s1 e1 b s2 e2 : acts s e a s1 e1 -> acts s1 e1 b s2 e2 -> acts s e (a ++ b) s2 e2.
Proof. intros H1 H2. induction H1; [exact H2|]. eapply A_cons; eauto. Qed.
Lemma acts_mach pot f s e a s1 e1 x : acts s e a s1 e1 -> mach pot f s e (a ++ x) = mach pot f s1 e1 x.
Proof. intros H. induction H; [reflexivity|]. cbn [app mach]. rewrite H. exact IHacts. Qed.

Lemma trim_quote p : trim_space (quote p) = quote p.
Proof. unfold GoQuote.quote. apply trim_space_visible; apply visible_dq. Qed.
Lemma visible_m : visible "m". Proof. split; vm_compute; reflexivity. Qed.
Lemma not_blank c t : visible c -> is_empty (trim_space (c :: t)) = false.
Proof. intros H. destruct (trim_space_nonempty c t H) as [u ->]. reflexivity. Qed.
Lemma data_first k p f : on_data (k ++ SP :: quote p) (k ++ [SP]) f = f p.
Proof.
  unfold on_data, remove_prefix_unquote.
  replace (k ++ SP :: quote p) with ((k ++ [SP]) ++ quote p) by (rewrite <- app_assoc; reflexivity).
  rewrite trim_prefix_app, trim_quote, unquote_quote. reflexivity.
Qed.
Lemma data_cont p f : on_data (quote p) [] f = f p.
Proof.
  unfold on_data, remove_prefix_unquote.
  change (trim_prefix [] (quote p)) with (quote p). rewrite trim_quote, unquote_quote. reflexivity.
Qed.
Lemma action_cont s e p : line_action s e (quote p) =
  match s with
  | SNone => ANext s e
  | SCtxt => ANext s (app_ctxt e p)
  | SId2 => ANext s (app_id2 e p)
  | SId => ANext s (app_id e p)
  | SStrN => match app_strn e p with Some e' => ANext s e' | None => APanic end
  | SStr => ANext s (app_str e p)
  end.
Proof.
  unfold line_action. unfold GoQuote.quote at 1. rewrite not_blank by apply visible_dq.
  change (has_prefix P_cmt (quote p)) with false. change (has_prefix P_ctxt (quote p)) with false.
  change (has_prefix P_id2 (quote p)) with false. change (has_prefix P_id (quote p)) with false.
  change (has_prefix (P_strn (length (e_strn e))) (quote p)) with false.
  change (has_prefix P_str (quote p)) with false. change (has_prefix [DQ] (quote p)) with true.
  cbv iota. apply data_cont.
Qed.
Lemma action_ctxt e p : line_action SNone e (K_ctxt ++ SP :: quote p) = ANext SCtxt (app_ctxt e p).
Proof.
  unfold line_action. change (K_ctxt ++ SP :: quote p) with ("m"%char :: B "sgctxt" ++ SP :: quote p) at 1.
  rewrite not_blank by apply visible_m. change (has_prefix P_cmt (K_ctxt ++ SP :: quote p)) with false.
  change (has_prefix P_ctxt (K_ctxt ++ SP :: quote p)) with true. cbn [st_eqb negb]. cbv iota. apply data_first.
Qed.
Lemma action_id s e p : s = SNone \/ s = SCtxt -> line_action s e (K_id ++ SP :: quote p) = ANext SId (app_id e p).
Proof.
  intros Hs. unfold line_action. change (K_id ++ SP :: quote p) with ("m"%char :: B "sgid" ++ SP :: quote p) at 1.
  rewrite not_blank by apply visible_m. change (has_prefix P_cmt (K_id ++ SP :: quote p)) with false.
  change (has_prefix P_ctxt (K_id ++ SP :: quote p)) with false.
  change (has_prefix P_id2 (K_id ++ SP :: quote p)) with false.
  change (has_prefix P_id (K_id ++ SP :: quote p)) with true.
  destruct Hs as [-> | ->]; cbn [equals_any existsb st_eqb orb]; cbv iota; apply data_first.
Qed.
Lemma action_id2 e p : line_action SId e (K_id2 ++ SP :: quote p) = ANext SId2 (set_plural (app_id2 e p)).
Proof.
  unfold line_action. change (K_id2 ++ SP :: quote p) with ("m"%char :: B "sgid_plural" ++ SP :: quote p) at 1.
  rewrite not_blank by apply visible_m. change (has_prefix P_cmt (K_id2 ++ SP :: quote p)) with false.
  change (has_prefix P_ctxt (K_id2 ++ SP :: quote p)) with false.
  change (has_prefix P_id2 (K_id2 ++ SP :: quote p)) with true.
  cbn [equals_any existsb st_eqb orb]; cbv iota. apply data_first.
Qed.
Lemma action_str s e p : s = SId \/ s = SId2 -> line_action s e (K_str ++ SP :: quote p) = ANext SStr (app_str e p).
Proof.
  intros Hs. unfold line_action. change (K_str ++ SP :: quote p) with ("m"%char :: B "sgstr" ++ SP :: quote p) at 1.
  rewrite not_blank by apply visible_m. change (has_prefix P_cmt (K_str ++ SP :: quote p)) with false.
  change (has_prefix P_ctxt (K_str ++ SP :: quote p)) with false.
  change (has_prefix P_id2 (K_str ++ SP :: quote p)) with false.
  change (has_prefix P_id (K_str ++ SP :: quote p)) with false.
  change (has_prefix (P_strn (length (e_strn e))) (K_str ++ SP :: quote p)) with false.
  change (has_prefix P_str (K_str ++ SP :: quote p)) with true.
  destruct Hs as [-> | ->]; cbn [equals_any existsb st_eqb orb]; cbv iota; apply data_first.
Qed.
Lemma action_strn s e p : s <> SStr -> 
  line_action s e (K_strn (length (e_strn e)) ++ SP :: quote p) = ANext SStrN (new_strn e p).
Proof.
  intros Hs. set (i := length (e_strn e)). unfold line_action.
  change (K_strn i ++ SP :: quote p) with ("m"%char :: (B "sgstr[" ++ dec (N.of_nat i) ++ B "]") ++ SP :: quote p) at 1.
  rewrite not_blank by apply visible_m. change (has_prefix P_cmt (K_strn i ++ SP :: quote p)) with false.
  change (has_prefix P_ctxt (K_strn i ++ SP :: quote p)) with false.
  change (has_prefix P_id2 (K_strn i ++ SP :: quote p)) with false.
  change (has_prefix P_id (K_strn i ++ SP :: quote p)) with false. fold i.
  assert (E : has_prefix (P_strn i) (K_strn i ++ SP :: quote p) = true).
  { unfold P_strn. replace (K_strn i ++ SP :: quote p) with ((K_strn i ++ [SP]) ++ quote p) by (rewrite <- app_assoc; reflexivity).
    apply has_prefix_app. }
  rewrite E. replace (equals_any s [SStr]) with false by (destruct s; try reflexivity; congruence).
  apply data_first.
Qed.
(** continuation lines: [upd acc] is the entry after [acc] has been read *)
Lemma acts_cont s (upd : bytes -> entry) :
  (forall acc p, line_action s (upd acc) (quote p) = ANext s (upd (acc ++ p))) ->
  forall r acc, acts s (upd acc) (map quote r) s (upd (acc ++ concat r)).
Proof.
  intros H. induction r as [|p r IH]; intros acc; cbn [map concat].
  - rewrite (app_nil_r acc). apply A_nil.
  - eapply A_cons; [apply H|]. rewrite app_assoc. apply IH.
Qed.
Lemma acts_field s0 e0 k s (upd : bytes -> entry) content :
  (forall p, line_action s0 e0 (k ++ SP :: quote p) = ANext s (upd p)) ->
  (forall acc p, line_action s (upd acc) (quote p) = ANext s (upd (acc ++ p))) ->
  acts s0 e0 (field_lines k content) s (upd content).
Proof.
  intros H1 H2. unfold field_lines. pose proof (split_lines_concat content) as C.
  destruct (split_lines_cons content) as (p & r & E). rewrite E in *. cbn [concat] in C.
  eapply A_cons; [apply H1|]. rewrite <- C. apply acts_cont, H2.
Qed.
Lemma acts_ctxt e c : e_ctxt e = [] -> acts SNone e (field_lines K_ctxt c) SCtxt (app_ctxt e c).
Proof.
  intros _. apply acts_field with (upd := fun d => app_ctxt e d); [apply action_ctxt|].
  intros acc p. rewrite action_cont. unfold app_ctxt. cbn. rewrite app_assoc. reflexivity.
Qed.
Lemma acts_id s e c : s = SNone \/ s = SCtxt -> acts s e (field_lines K_id c) SId (app_id e c).
Proof.
  intros Hs. apply acts_field with (upd := fun d => app_id e d); [intros; apply action_id, Hs|].
  intros acc p. rewrite action_cont. unfold app_id. cbn. rewrite app_assoc. reflexivity.
Qed.
Lemma acts_id2 e c : acts SId e (field_lines K_id2 c) SId2 (set_plural (app_id2 e c)).
Proof.
  apply acts_field with (upd := fun d => set_plural (app_id2 e d)); [intros; apply action_id2|].
  intros acc p. rewrite action_cont. unfold set_plural, app_id2. cbn. rewrite app_assoc. reflexivity.
Qed.
Lemma acts_str s e c : s = SId \/ s = SId2 -> acts s e (field_lines K_str c) SStr (app_str e c).
Proof.
  intros Hs. apply acts_field with (upd := fun d => app_str e d); [intros; apply action_str, Hs|].
  intros acc p. rewrite action_cont. unfold app_str. cbn. rewrite app_assoc. reflexivity.
Qed.
Lemma app_last_snoc l x d : app_last (l ++ [x]) d = Some (l ++ [x ++ d]).
Proof.
  induction l as [|y l IH]; [reflexivity|]. cbn [app]. cbn [app_last]. destruct (l ++ [x]) as [|z m] eqn:E.
  - destruct l; discriminate.
  - rewrite IH. reflexivity.
Qed.
Lemma acts_strn1 s e c : s <> SStr -> acts s e (field_lines (K_strn (length (e_strn e))) c) SStrN (new_strn e c).
Proof.
  intros Hs. apply acts_field with (upd := fun d => new_strn e d); [intros; apply action_strn, Hs|].
  intros acc p. rewrite action_cont. unfold app_strn, new_strn. cbn [e_strn]. rewrite app_last_snoc. reflexivity.
Qed.
Definition add_strn (e : entry) (l : list bytes) : entry :=
  {| e_cmts := e_cmts e; e_ctxt := e_ctxt e; e_id := e_id e; e_plural := e_plural e;
     e_id2 := e_id2 e; e_str := e_str e; e_strn := e_strn e ++ l |}.
Lemma entry_eta e : {| e_cmts := e_cmts e; e_ctxt := e_ctxt e; e_id := e_id e; e_plural := e_plural e;
     e_id2 := e_id2 e; e_str := e_str e; e_strn := e_strn e |} = e.
Proof. destruct e; reflexivity. Qed.
Lemma acts_strn l : forall s e, s <> SStr -> 
  acts s e (strn_lines (length (e_strn e)) l) (match l with [] => s | _ => SStrN end) (add_strn e l).
Proof.
  induction l as [|x r IH]; intros s e Hs; cbn [strn_lines].
  - unfold add_strn. rewrite app_nil_r, entry_eta. apply A_nil.
  - eapply acts_app; [apply acts_strn1, Hs|].
    specialize (IH SStrN (new_strn e x)). cbn [new_strn e_strn] in IH. rewrite app_length in IH. cbn [length] in IH.
    replace (length (e_strn e) + 1) with (S (length (e_strn e))) in IH by lia.
    replace (add_strn e (x :: r)) with (add_strn (new_strn e x) r)
      by (unfold add_strn, new_strn; cbn; rewrite <- app_assoc; reflexivity).
    replace (match r with [] => SStrN | _ => SStrN end) with SStrN in IH by (destruct r; reflexivity).
    apply IH. discriminate.
Qed.
Lemma comment_visible c : comment_ok c -> ~ white c.
Proof.
  intros ([t ->] & _) W. unfold white in W. cbn [B list_ascii_of_string app] in W.
  destruct (trim_space_nonempty "#" t) as [u E]; [split; vm_compute; reflexivity|]. rewrite E in W; discriminate.
Qed.
Lemma acts_cmts l : forall e, (forall c, In c l -> comment_ok c) ->
  acts SNone e l SNone {| e_cmts := e_cmts e ++ l; e_ctxt := e_ctxt e; e_id := e_id e; e_plural := e_plural e;
     e_id2 := e_id2 e; e_str := e_str e; e_strn := e_strn e |}.
Proof.
  induction l as [|c r IH]; intros e H.
  - rewrite app_nil_r, entry_eta. apply A_nil.
  - apply A_cons with (s1 := SNone) (e1 := app_cmt e c).
    + pose proof (H c (or_introl eq_refl)) as Hc. unfold line_action.
      destruct (is_empty (trim_space c)) eqn:E; [exfalso; apply (comment_visible c Hc), blank_white, E|].
      destruct Hc as ([t ->] & _). reflexivity.
    + specialize (IH (app_cmt e c)). cbn [app_cmt e_cmts e_ctxt e_id e_plural e_id2 e_str e_strn] in IH.
      rewrite <- app_assoc in IH. apply IH. intros x Hx; apply H; right; exact Hx.
Qed.
Lemma acts_blank s e : acts s e [[]] s e.
Proof. eapply A_cons; [reflexivity|apply A_nil]. Qed.
Lemma acts_cmts_ctxt e : (forall c, In c (e_cmts e) -> comment_ok c) -> exists s, (s = SNone \/ s = SCtxt) /\
  acts SNone zero_entry (e_cmts e ++ (if negb (is_empty (e_ctxt e)) then field_lines K_ctxt (e_ctxt e) else [])) s
    {| e_cmts := e_cmts e; e_ctxt := e_ctxt e; e_id := []; e_plural := false; e_id2 := []; e_str := []; e_strn := [] |}.
Proof.
  intros Hc. destruct (e_ctxt e) as [|x c] eqn:Ec; cbn [is_empty negb].
  - exists SNone. split; [auto|]. eapply acts_app; [apply acts_cmts, Hc|apply A_nil].
  - exists SCtxt. split; [auto|]. eapply acts_app; [apply acts_cmts, Hc|]. cbn [zero_entry e_cmts e_ctxt e_id e_plural e_id2 e_str e_strn app].
    eapply acts_ctxt. reflexivity.
Qed.
Lemma acts_po_end e : po_ok e -> exists s, finished s /\ (e_str e <> [] -> s = SStr) /\ acts SNone zero_entry (po_lines e) s e.
Proof.
  intros (Hc & Hp & Hs). unfold po_lines.
  destruct (acts_cmts_ctxt e Hc) as (s0 & Hs0 & A0).
  assert (A1 := acts_app _ _ _ _ _ _ _ _ A0 (acts_id s0 _ (e_id e) Hs0)). cbn [app_id e_cmts e_ctxt e_id e_plural e_id2 e_str e_strn app] in A1.
  set (e1 := {| e_cmts := e_cmts e; e_ctxt := e_ctxt e; e_id := e_id e; e_plural := e_plural e; e_id2 := e_id2 e; e_str := []; e_strn := [] |}).
  assert (A2 : exists s2, (s2 = SId \/ s2 = SId2) /\ acts SId
     {| e_cmts := e_cmts e; e_ctxt := e_ctxt e; e_id := e_id e; e_plural := false; e_id2 := []; e_str := []; e_strn := [] |}
     (if e_plural e then field_lines K_id2 (e_id2 e) else []) s2 e1).
  { unfold e1. destruct (e_plural e) eqn:Ep.
    - exists SId2. split; [auto|]. apply acts_id2.
    - exists SId. split; [auto|]. destruct Hp as [Hp|Hp]; [discriminate|]. rewrite Hp. apply A_nil. }
  destruct A2 as (s2 & Hs2 & A2).
  set (e2 := {| e_cmts := e_cmts e; e_ctxt := e_ctxt e; e_id := e_id e; e_plural := e_plural e; e_id2 := e_id2 e; e_str := e_str e; e_strn := [] |}).
  assert (A3 : exists s3, finished s3 /\ (e_strn e <> [] -> s3 <> SStr) /\ (e_str e <> [] -> s3 = SStr) /\ acts s2 e1
     (if negb (is_empty (e_str e)) then field_lines K_str (e_str e) else []) s3 e2).
  { unfold e2. destruct (e_str e) as [|x st] eqn:Es; cbn [is_empty negb].
    - exists s2. split; [unfold finished; tauto|]. split; [destruct Hs2; congruence|].
      split; [congruence|]. apply A_nil.
    - exists SStr. split; [unfold finished; tauto|]. split; [destruct Hs; congruence|]. split; [reflexivity|].
      unfold e1. apply acts_str. exact Hs2. }
  destruct A3 as (s3 & F3 & N3 & M3 & A3).
  assert (A4 : exists s4, finished s4 /\ (e_str e <> [] -> s4 = SStr) /\ acts s3 e2 (strn_lines 0 (e_strn e)) s4 e).
  { destruct (e_strn e) as [|x l] eqn:En.
    - exists s3. split; [exact F3|]. split; [exact M3|]. cbn [strn_lines].
      assert (E2 : e2 = e) by (unfold e2; transitivity {| e_cmts := e_cmts e; e_ctxt := e_ctxt e; e_id := e_id e;
        e_plural := e_plural e; e_id2 := e_id2 e; e_str := e_str e; e_strn := e_strn e |};
        [f_equal; symmetry; exact En|apply entry_eta]).
      rewrite E2. apply A_nil.
    - exists SStrN. split; [unfold finished; tauto|]. split; [destruct Hs; congruence|].
      pose proof (acts_strn (x :: l) s3 e2 ltac:(apply N3; discriminate)) as A.
      assert (E2 : add_strn e2 (x :: l) = e) by (transitivity {| e_cmts := e_cmts e; e_ctxt := e_ctxt e; e_id := e_id e;
        e_plural := e_plural e; e_id2 := e_id2 e; e_str := e_str e; e_strn := e_strn e |};
        [unfold add_strn, e2; cbn [e_cmts e_ctxt e_id e_plural e_id2 e_str e_strn app]; f_equal; symmetry; exact En|apply entry_eta]).
      rewrite E2 in A. exact A. }
  destruct A4 as (s4 & F4 & M4 & A4). exists s4. split; [exact F4|]. split; [exact M4|].
  rewrite (app_assoc (e_cmts e)).
  rewrite (app_assoc (e_cmts e ++ _) (field_lines K_id (e_id e))).
  eapply acts_app; [exact A1|]. eapply acts_app; [exact A2|]. eapply acts_app; [exact A3|].
  eapply acts_app; [exact A4|]. apply acts_blank.
Qed.
Lemma acts_po e : po_ok e -> exists s, finished s /\ acts SNone zero_entry (po_lines e) s e.
Proof. intros H. destruct (acts_po_end e H) as (s & F & _ & A). eauto. Qed.
Lemma acts_pot e : pot_ok e -> exists s, finished s /\ acts SNone zero_entry (pot_lines e) s (template_of e).
Proof.
  intros (Hc & Hp). unfold pot_lines.
  destruct (acts_cmts_ctxt e Hc) as (s0 & Hs0 & A0).
  assert (A1 := acts_app _ _ _ _ _ _ _ _ A0 (acts_id s0 _ (e_id e) Hs0)). cbn [app_id e_cmts e_ctxt e_id e_plural e_id2 e_str e_strn app] in A1.
  rewrite (app_assoc (e_cmts e)). rewrite (app_assoc (e_cmts e ++ _) (field_lines K_id (e_id e))).
  assert (X : exists s, finished s /\ acts SId {| e_cmts := e_cmts e; e_ctxt := e_ctxt e; e_id := e_id e; e_plural := false; e_id2 := []; e_str := []; e_strn := [] |}
     (if negb (e_plural e) then
        (if is_empty (e_id e) then field_lines K_str (e_str e) else field_lines K_str [])
      else field_lines K_id2 (e_id2 e) ++ field_lines (K_strn 0) [] ++ field_lines (K_strn 1) []) s (template_of e)).
  { destruct (e_plural e) eqn:Ep; cbn [negb].
    - assert (T : template_of e = {| e_cmts := e_cmts e; e_ctxt := e_ctxt e; e_id := e_id e; e_plural := true;
        e_id2 := e_id2 e; e_str := []; e_strn := [[]; []] |})
        by (unfold template_of; rewrite Ep; destruct (e_id e); reflexivity).
      rewrite T. exists SStrN. split; [unfold finished; tauto|].
      eapply acts_app; [apply acts_id2|]. eapply acts_app; [apply acts_strn1; discriminate|].
      eassert (Q := acts_strn1 SStrN (new_strn _ _) [] ltac:(discriminate)).
      exact Q.
    - exists SStr. split; [unfold finished; tauto|]. destruct Hp as [Hp|Hp]; [discriminate|].
      unfold template_of. rewrite Hp, Ep.
      destruct (e_id e) as [|x i]; cbn [is_empty]; (eapply (acts_str SId); left; reflexivity). }
  destruct X as (s & F & X). exists s. split; [exact F|].
  eapply acts_app; [exact A1|]. eapply acts_app; [exact X|]. apply acts_blank.
Qed.

(** ** Reading a whole file *)
Section Whole.
Variables (pot : bool) (lines_of : entry -> list bytes) (img : entry -> entry) (good : entry -> Prop).
Hypothesis Hclean : forall e x, good e -> In x (lines_of e) -> clean x.
Hypothesis Hacts : forall e, good e -> exists s, finished s /\ acts SNone zero_entry (lines_of e) s (img e).
Hypothesis Hstart : forall e, good e -> exists l r, lines_of e = l :: r /\ ~ white l
  /\ (starts (B "#") l \/ starts (B "msgctxt ") l \/ starts (B "msgid ") l).

Lemma mach_entries : forall es f s e, finished s -> (forall x, In x es -> good x) ->
  mach pot f s e (concat (map lines_of es) ++ [[]]) =
  PoOk (fold_left (addif pot) (e :: map img es) f).
Proof.
  induction es as [|x es IH]; intros f s e F H.
  - reflexivity.
  - cbn [map concat fold_left]. rewrite <- app_assoc.
    destruct (Hacts x (H x (or_introl eq_refl))) as (s1 & F1 & A1).
    destruct (Hstart x (H x (or_introl eq_refl))) as (l & r & E & W & S).
    rewrite E at 1. cbn [app]. rewrite mach_nil_start by (apply start_unget; assumption).
    change (l :: r ++ concat (map lines_of es) ++ [[]]) with ((l :: r) ++ concat (map lines_of es) ++ [[]]).
    rewrite <- E. rewrite (acts_mach pot _ _ _ _ _ _ _ A1).
    rewrite IH; [reflexivity|exact F1|]. intros y Hy; apply H; right; exact Hy.
Qed.
Theorem read_entries es : es <> [] -> (forall x, In x es -> good x) ->
  read_po_ pot (text_of (concat (map lines_of es))) = PoOk (fold_left (addif pot) (map img es) new_file).
Proof.
  intros Hne H.
  assert (Cl : forall x, In x (concat (map lines_of es)) -> clean x).
  { intros x Hx. apply in_concat in Hx as (ls & Hl & Hx). apply in_map_iff in Hl as (e & <- & He).
    eapply Hclean; eauto. }
  destruct es as [|x es]; [congruence|].
  destruct (Hstart x (H x (or_introl eq_refl))) as (l & r & E & W & S).
  rewrite read_po_mach.
  2:{ cbn [map concat]. rewrite E. cbn [app]. unfold text_of. cbn [map concat]. destruct l; discriminate. }
  unfold po_lines_of. rewrite remove_byte_no.
  2:{ intros Hr. apply in_text_of in Hr as [Hr|(y & Hy & Hr)]; [discriminate|]. apply (proj2 (Cl y Hy)), Hr. }
  rewrite split_text by (intros y Hy; apply (proj1 (Cl y Hy))).
  cbn [map concat]. rewrite <- app_assoc.
  destruct (Hacts x (H x (or_introl eq_refl))) as (s1 & F1 & A1).
  rewrite (acts_mach pot _ _ _ _ _ _ _ A1). rewrite mach_entries; [reflexivity|exact F1|].
  intros y Hy; apply H; right; exact Hy.
Qed.
End Whole.

Lemma field_head k s : exists t r, field_lines k s = (k ++ SP :: t) :: r.
Proof. unfold field_lines. destruct (split_lines_cons s) as (p & r & ->). eauto. Qed.
Lemma head_start e (rest : list bytes) :
  (forall c, In c (e_cmts e) -> comment_ok c) ->
  exists l r, e_cmts e ++ (if negb (is_empty (e_ctxt e)) then field_lines K_ctxt (e_ctxt e) else []) ++ field_lines K_id (e_id e) ++ rest = l :: r
  /\ ~ white l /\ (starts (B "#") l \/ starts (B "msgctxt ") l \/ starts (B "msgid ") l).
Proof.
  intros Hc. destruct (e_cmts e) as [|c cs].
  - cbn [app]. destruct (negb (is_empty (e_ctxt e))).
    + destruct (field_head K_ctxt (e_ctxt e)) as (t & r & ->). eexists _, _. split; [reflexivity|]. split.
      * intros W. unfold white in W. pose proof (not_blank "m" (B "sgctxt" ++ SP :: t) visible_m) as N.
        cbn [app B list_ascii_of_string] in N. cbn [K_ctxt B list_ascii_of_string app] in W. rewrite W in N. discriminate.
      * right; left. exists t. reflexivity.
    + cbn [app]. destruct (field_head K_id (e_id e)) as (t & r & ->). eexists _, _. split; [reflexivity|]. split.
      * intros W. unfold white in W. pose proof (not_blank "m" (B "sgid" ++ SP :: t) visible_m) as N.
        cbn [app B list_ascii_of_string] in N. cbn [K_id B list_ascii_of_string app] in W. rewrite W in N. discriminate.
      * right; right. exists t. reflexivity.
  - cbn [app]. eexists _, _. split; [reflexivity|].
    pose proof (Hc c (or_introl eq_refl)) as H. split; [apply comment_visible, H|left; apply H].
Qed.
Lemma concat_text (g : entry -> list bytes) es : concat (map (fun e => text_of (g e)) es) = text_of (concat (map g es)).
Proof. induction es as [|e es IH]; [reflexivity|]. cbn [map concat]. rewrite text_of_app, IH. reflexivity. Qed.
Theorem read_po_text es : es <> [] -> (forall x, In x es -> po_ok x) ->
  read_po (concat (map (po_entry isp) es)) = PoOk (fold_left (addif false) es new_file).
Proof.
  intros Hne H. rewrite (map_ext _ _ po_entry_lines), concat_text. unfold read_po.
  rewrite (read_entries false po_lines (fun e => e) po_ok); [rewrite map_id; reflexivity|..]; try assumption.
  - intros e x (Hc & _). apply po_lines_clean, Hc.
  - apply acts_po.
  - intros e (Hc & _). unfold po_lines. apply head_start, Hc.
Qed.
Theorem read_pot_text es : es <> [] -> (forall x, In x es -> pot_ok x) ->
  read_pot (concat (map (pot_entry isp) es)) = PoOk (fold_left (addif true) (map template_of es) new_file).
Proof.
  intros Hne H. rewrite (map_ext _ _ pot_entry_lines), concat_text. unfold read_pot.
  rewrite (read_entries true pot_lines template_of pot_ok); [reflexivity|..]; try assumption.
  - intros e x (Hc & _). apply pot_lines_clean, Hc.
  - apply acts_pot.
  - intros e (Hc & _). unfold pot_lines. apply head_start, Hc.
Qed.
End W.
