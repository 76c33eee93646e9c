(** What the writer writes is a layout of the entries; its strings are C strings. *)
From Coq Require Import Lia Permutation ZifyBool ZifyNat ZifyN.
From Verif Require Import GoStr GoStrFacts GoQuote GoQuoteFacts GoMap FileModel WrapModel WrapFacts
  PoModel PoSpec PoWriteFacts SortFacts BlankSpec LitSpec LitFacts PoGramSpec PoGramFacts CStrSpec.

Section Out.
Variable isp : N -> bool.
Notation quote := (quote isp).
Lemma quote_spaced p : spaced (quote p) p.
Proof.
  exists [], (quote p), []. split; [symmetry; apply app_nil_r|]. split; [constructor|]. split; [constructor|].
  apply unquote_literal, unquote_quote.
Qed.
Lemma quote_continues p : continues (quote p) p.
Proof. split; [exists (quote_body isp (length p) p ++ [DQ]); reflexivity|apply quote_spaced]. Qed.
Lemma field_laid k s : field k s (field_lines isp k s).
Proof.
  unfold field_lines. destruct (split_lines_cons s) as (p & r & E). rewrite E.
  rewrite <- (split_lines_concat s), E. clear E. cbn [concat].
  induction r as [|x r IH] using rev_ind; cbn [map concat].
  - rewrite app_nil_r. apply F_first, quote_spaced.
  - rewrite concat_app, map_app, app_assoc. cbn [map concat]. rewrite app_nil_r.
    change ((k ++ SP :: quote p) :: map quote r ++ [quote x]) with (((k ++ SP :: quote p) :: map quote r) ++ [quote x]).
    apply F_more; [exact IH|apply quote_continues].
Qed.
Lemma strn_laid l : forall i, forms i l (strn_lines isp i l).
Proof. induction l as [|s r IH]; intros i; cbn [strn_lines]; constructor; [apply field_laid|apply IH]. Qed.
(** the lines of an entry without the empty line that ends it *)
Definition po_block (e : entry) : list bytes :=
  e_cmts e
  ++ (if negb (is_empty (e_ctxt e)) then field_lines isp K_ctxt (e_ctxt e) else [])
  ++ field_lines isp K_id (e_id e)
  ++ (if e_plural e then field_lines isp K_id2 (e_id2 e) else [])
  ++ (if negb (is_empty (e_str e)) then field_lines isp K_str (e_str e) else [])
  ++ strn_lines isp 0 (e_strn e).
Lemma po_lines_block e : po_lines isp e = po_block e ++ [[]].
Proof. unfold po_lines, po_block. rewrite !app_assoc. reflexivity. Qed.
Lemma po_block_lays e : po_ok e -> lays e (po_block e).
Proof.
  intros (Hc & Hp & Hs). unfold po_block.
  eexists _, _, _, _, _. split; [reflexivity|].
  split; [intros c I; apply Hc, I|].
  split.
  { destruct (e_ctxt e) eqn:E; [right; split; [reflexivity|reflexivity]|left; apply field_laid]. }
  split; [apply field_laid|]. split.
  { destruct (e_plural e); [apply field_laid|]. split; [|reflexivity]. destruct Hp as [Hp|Hp]; [discriminate|exact Hp]. }
  split.
  { destruct (e_str e) eqn:E; [right; split; [reflexivity|reflexivity]|left; apply field_laid]. }
  split; [apply strn_laid|]. destruct Hs as [-> | ->]; [left|right]; reflexivity.
Qed.
Definition pot_block (e : entry) : list bytes :=
  e_cmts e
  ++ (if negb (is_empty (e_ctxt e)) then field_lines isp K_ctxt (e_ctxt e) else [])
  ++ field_lines isp K_id (e_id e)
  ++ (if negb (e_plural e) then
        (if is_empty (e_id e) then field_lines isp K_str (e_str e) else field_lines isp K_str [])
      else field_lines isp K_id2 (e_id2 e) ++ field_lines isp (K_strn 0) [] ++ field_lines isp (K_strn 1) []).
Lemma pot_lines_block e : pot_lines isp e = pot_block e ++ [[]].
Proof. unfold pot_lines, pot_block. rewrite !app_assoc. reflexivity. Qed.
Lemma pot_block_lays e : pot_ok e -> lays (template_of e) (pot_block e).
Proof.
  intros (Hc & Hp). unfold pot_block.
  exists (if negb (is_empty (e_ctxt e)) then field_lines isp K_ctxt (e_ctxt e) else []), (field_lines isp K_id (e_id e)),
    (if e_plural e then field_lines isp K_id2 (e_id2 e) else []),
    (if e_plural e then [] else field_lines isp K_str (match e_id e with [] => e_str e | _ => [] end)),
    (if e_plural e then field_lines isp (K_strn 0) [] ++ field_lines isp (K_strn 1) [] else []).
  cbn [template_of e_cmts e_ctxt e_id e_plural e_id2 e_str e_strn]. split.
  { destruct (e_plural e); cbn [negb app]; [reflexivity|]. rewrite !app_nil_r. destruct (e_id e); reflexivity. }
  split; [intros c I; apply Hc, I|].
  split.
  { destruct (e_ctxt e) eqn:E; [right; split; reflexivity|left; apply field_laid]. }
  split; [apply field_laid|]. split.
  { destruct (e_plural e); [apply field_laid|]. split; [|reflexivity]. destruct Hp as [Hp|Hp]; [discriminate|exact Hp]. }
  split.
  { destruct (e_plural e); [right|left]; [split; [destruct (e_id e)|]; reflexivity|].
    destruct (e_id e); apply field_laid. }
  split; [|destruct (e_plural e); [left|right]; reflexivity].
  destruct (e_plural e); [|constructor]. rewrite <- (app_nil_r (_ ++ _)), <- app_assoc.
  apply (FS_cons 0); [apply field_laid|]. apply (FS_cons 1); [apply field_laid|constructor].
Qed.
Lemma blocks_text (g h : entry -> list bytes) l : (forall e, g e = h e ++ [[]]) ->
  concat (map (fun e => text_of (g e)) l) = text_of (concat (map (fun ls => ls ++ [[]]) (map h l))).
Proof.
  intros H. induction l as [|e l IH]; [reflexivity|]. cbn [map concat]. rewrite text_of_app, <- IH, H. reflexivity.
Qed.
Lemma forall2_map {X Y} (R : X -> Y -> Prop) (h : X -> Y) l : (forall x, In x l -> R x (h x)) -> Forall2 R l (map h l).
Proof.
  induction l as [|x l IH]; intros H; cbn [map]; constructor; [apply H; left; reflexivity|].
  apply IH. intros y I. apply H. right. exact I.
Qed.
Lemma saved_po f out : saves_po isp f out -> (forall e, In e (vals (f_entries f)) -> po_ok e) ->
  exists es lss, sorted_entries f es /\ Forall2 lays es lss /\ out = text_of (concat (map (fun ls => ls ++ [[]]) lss)).
Proof.
  intros (l & S & ->) Ok. exists l, (map po_block l). split; [exact S|]. split.
  - apply forall2_map. intros e I. apply po_block_lays, Ok. destruct S as [P _].
    apply (Permutation_in _ P I).
  - rewrite <- (blocks_text _ _ _ po_lines_block). f_equal. apply map_ext. intros e. apply po_entry_lines.
Qed.
Lemma saved_pot f out : saves_pot isp f out -> (forall e, In e (vals (f_entries f)) -> pot_ok e) ->
  exists es lss, sorted_entries f es /\ Forall2 lays (map template_of es) lss /\ out = text_of (concat (map (fun ls => ls ++ [[]]) lss)).
Proof.
  intros (l & S & ->) Ok. exists l, (map pot_block l). split; [exact S|]. split.
  - assert (H : Forall2 (fun e ls => lays (template_of e) ls) l (map pot_block l)).
    { apply forall2_map. intros e I. apply pot_block_lays, Ok. destruct S as [P _]. apply (Permutation_in _ P I). }
    clear S. induction H; cbn [map]; constructor; assumption.
  - rewrite <- (blocks_text _ _ _ pot_lines_block). f_equal. apply map_ext. intros e. apply pot_entry_lines.
Qed.

(** ** C strings *)
Local Open Scope N_scope.
Lemma high_cstr w s t : (forall c, In c w -> c <> DQ /\ c <> BSL /\ c <> NL) -> cstr s t -> cstr (w ++ s) (w ++ t).
Proof.
  intros H C. induction w as [|c w IH]; [exact C|]. cbn [app].
  change (c :: w ++ s) with ([c] ++ (w ++ s)). destruct (H c (or_introl eq_refl)) as (H1 & H2 & H3).
  apply CS_cons; [apply CC_plain; assumption|]. apply IH. intros x I. apply H. right. exact I.
Qed.
Lemma escape_cstr r w s t : utf8 r w -> 0x20 <= r < 0x7F \/ 7 <= r <= 13 \/ (0x80 <= r /\ isp r = true) ->
  cstr s t -> cstr (escape_rune isp r ++ s) (w ++ t).
Proof.
  intros U H C. pose proof U as U'. apply utf8_encode in U' as [V Ew].
  assert (E : forall e (c : ascii), w = [c] -> In (e, code c) c_escapes -> cstr ([BSL; e] ++ s) (w ++ t)).
  { intros e c -> I. cbn [app]. change (BSL :: e :: s) with ([BSL; e] ++ s). apply CS_cons; [apply CC_esc, I|exact C]. }
  assert (A : r < 0x80 -> exists c, w = [c] /\ code c = r).
  { intros L. destruct (utf8_head r w U) as (c & t0 & -> & H1 & _). destruct (H1 L) as [H2 ->]. eauto. }
  unfold escape_rune. change (code DQ) with 34. change (code BSL) with 92.
  destruct ((r =? 34) || (r =? 92)) eqn:E0.
  { destruct A as (c & Hw & Hc); [lia|]. assert (B : byte_of r = c) by (rewrite <- Hc; apply byte_of_code).
    rewrite B. apply (E c c Hw). unfold c_escapes.
    assert (r = 34 \/ r = 92) as [Hr | Hr] by lia; rewrite Hr in *; subst c; cbn; tauto. }
  unfold is_print. destruct (r <? 128) eqn:E1.
  - destruct A as (c & Hw & Hc); [lia|].
    destruct ((32 <=? r) && (r <? 127)) eqn:E2.
    + rewrite <- Ew. apply high_cstr; [|exact C]. rewrite Hw. intros x [<-|[]].
      repeat split; intros ->; [change (code DQ) with 34 in Hc|change (code BSL) with 92 in Hc|change (code NL) with 10 in Hc]; subst r; discriminate.
    + assert (R : r = 7 \/ r = 8 \/ r = 9 \/ r = 10 \/ r = 11 \/ r = 12 \/ r = 13) by lia.
      destruct R as [R|[R|[R|[R|[R|[R|R]]]]]]; rewrite R in *; cbn [N.eqb Pos.eqb]; (eapply E; [exact Hw|rewrite Hc; cbn; tauto]).
  - assert (P : isp r = true) by (destruct H as [H|[H|[_ H]]]; [lia|lia|exact H]). rewrite P. rewrite <- Ew. apply high_cstr; [|exact C].
    intros c I. pose proof (utf8_high r w c U I ltac:(lia)) as G. repeat split; intros ->; vm_compute in G; apply G; reflexivity.
Qed.
Lemma body_cstr s : plain_text isp s -> forall n, (length s <= n)%nat -> cstr (quote_body isp n s) s.
Proof.
  induction 1 as [|r w s U P _ IH]; intros n Hn; [rewrite quote_body_nil; constructor|].
  pose proof U as U'. apply utf8_encode in U' as [V Ew].
  destruct (utf8_head r w U) as (c & u & Eu & Hlo & Hhi).
  destruct n as [|n]; [rewrite Eu in Hn; cbn [app length] in Hn; lia|].
  assert (D : decode_rune (w ++ s) = (r, length w)) by (rewrite Ew; apply encode_decode, V).
  rewrite app_length in Hn. rewrite Eu in D |- *. cbn [app quote_body]. cbn [app] in D. rewrite D.
  assert (Nb : Nat.eqb (length (c :: u)) 1 && (r =? RuneError) = false).
  { apply Bool.not_true_iff_false. intros T. apply andb_prop in T as [T1 T2]. apply N.eqb_eq in T2. subst r.
    rewrite <- Eu, Ew in T1. vm_compute in T1. discriminate. }
  rewrite Nb. change (c :: u ++ s) with ((c :: u) ++ s). rewrite <- Eu.
  rewrite skipn_app, skipn_all2, Nat.sub_diag by lia. cbn [skipn app].
  apply (escape_cstr r w); [exact U|exact P|]. apply IH. rewrite Eu in Hn. cbn [length] in Hn. lia.
Qed.
End Out.
