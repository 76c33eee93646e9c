(** Property C20 for saved files: where the strings of a .po or .pot file are
    broken, with the threshold of 77 bytes the writers use.  [isp] is any
    printability table for non-ASCII runes. *)
From Coq Require Import ZArith Lia Permutation.
From Verif Require Import GoStr GoStrFacts GoQuote GoMap FileModel WrapModel WrapSpec WrapFacts PoModel PropertiesPo.

(** ** Specification *)
Section Laid.
Variable isp : N -> bool.
(** [t] is the keyword [k], a blank, and the string [s] in quoted pieces, one on
    each line, broken at 77 bytes *)
Definition laid (k s t : bytes) : Prop :=
  exists ps, wrapped 77 s ps /\ t = k ++ SP :: concat (map (fun p => quote isp p ++ [NL]) ps).
(** [t] is laid out if [b], and absent otherwise *)
Definition laid_if (b : bool) (k s t : bytes) : Prop := if b then laid k s t else t = [].
(** the plural forms, numbered from [i] *)
Inductive laid_forms : nat -> list bytes -> bytes -> Prop :=
| F_nil i : laid_forms i [] []
| F_cons i s r t u : laid (B "msgstr[" ++ dec (N.of_nat i) ++ B "]") s t -> laid_forms (S i) r u -> laid_forms i (s :: r) (t ++ u).
Definition comments (e : entry) : bytes := concat (map (fun c => c ++ [NL]) (e_cmts e)).
(** an entry of a .po file *)
Definition po_laid (e : entry) (t : bytes) : Prop :=
  exists c i p s f,
    laid_if (negb (is_empty (e_ctxt e))) (B "msgctxt") (e_ctxt e) c /\ laid (B "msgid") (e_id e) i
    /\ laid_if (e_plural e) (B "msgid_plural") (e_id2 e) p
    /\ laid_if (negb (is_empty (e_str e))) (B "msgstr") (e_str e) s /\ laid_forms 0 (e_strn e) f
    /\ t = comments e ++ c ++ i ++ p ++ s ++ f ++ [NL].
(** an entry of a template: no translation is written, but the header is *)
Definition pot_laid (e : entry) (t : bytes) : Prop :=
  exists c i p,
    laid_if (negb (is_empty (e_ctxt e))) (B "msgctxt") (e_ctxt e) c /\ laid (B "msgid") (e_id e) i
    /\ laid_if (e_plural e) (B "msgid_plural") (e_id2 e) p
    /\ exists s,
      (if e_plural e then s = B "msgstr[0] """"" ++ NL :: B "msgstr[1] """"" ++ [NL]
       else laid (B "msgstr") (if is_empty (e_id e) then e_str e else []) s)
      /\ t = comments e ++ c ++ i ++ p ++ s ++ [NL].
End Laid.

(** ** Proofs *)
Section Facts.
Variable isp : N -> bool.
Lemma split_lines_wrapped s : wrapped 77 s (split_lines s).
Proof.
  apply split_iff. unfold split_lines. change line_threshold with 77%Z.
  destruct (split_ok 77 s) as (l & -> & _). reflexivity.
Qed.
Lemma wrapped_one th s a b : wrapped th s a -> wrapped th s b -> a = b.
Proof. intros X Y. apply split_iff in X, Y. congruence. Qed.
Lemma laid_iff k s t : laid isp k s t <-> t = write_string isp k s.
Proof.
  split.
  - intros (ps & W & ->). unfold write_string. rewrite (wrapped_one _ _ _ _ W (split_lines_wrapped s)). reflexivity.
  - intros ->. exists (split_lines s). split; [apply split_lines_wrapped|reflexivity].
Qed.
Lemma laid_if_iff b k s t : laid_if isp b k s t <-> t = if b then write_string isp k s else [].
Proof. destruct b; cbn [laid_if]; [apply laid_iff|reflexivity]. Qed.
Lemma laid_forms_iff l : forall i t, laid_forms isp i l t <-> t = write_strn isp i l.
Proof.
  induction l as [|s r IH]; intros i t; cbn [write_strn].
  - split; [inversion 1; reflexivity|intros ->; constructor].
  - split.
    + inversion 1 as [|i' s' r' a u Ha Hu]; subst. apply laid_iff in Ha. apply IH in Hu. subst. reflexivity.
    + intros ->. constructor; [apply laid_iff; reflexivity|apply IH; reflexivity].
Qed.
Lemma po_laid_iff e t : po_laid isp e t <-> t = po_entry isp e.
Proof.
  split.
  - intros (c & i & p & s & f & Hc & Hi & Hp & Hs & Hf & ->).
    apply laid_if_iff in Hc, Hp, Hs. apply laid_iff in Hi. apply laid_forms_iff in Hf. subst. reflexivity.
  - intros ->. do 5 eexists. rewrite !laid_if_iff, laid_iff, laid_forms_iff. repeat (split; [reflexivity|]). reflexivity.
Qed.
Lemma empty_forms : write_string isp (K_strn 0) [] ++ write_string isp (K_strn 1) []
  = B "msgstr[0] """"" ++ NL :: B "msgstr[1] """"" ++ [NL].
Proof. reflexivity. Qed.
Lemma pot_laid_iff e t : pot_laid isp e t <-> t = pot_entry isp e.
Proof.
  unfold pot_entry. rewrite empty_forms. split.
  - intros (c & i & p & Hc & Hi & Hp & s & Hs & ->). apply laid_if_iff in Hc, Hp. apply laid_iff in Hi. subst.
    destruct (e_plural e); cbn [negb].
    + subst s. rewrite <- (app_assoc (write_string isp K_id2 _)). reflexivity.
    + apply laid_iff in Hs. subst s. destruct (is_empty (e_id e)); reflexivity.
  - intros ->. do 3 eexists. rewrite !laid_if_iff, laid_iff. repeat (split; [reflexivity|]).
    destruct (e_plural e); cbn [negb].
    + eexists. split; [reflexivity|]. rewrite <- (app_assoc (write_string isp K_id2 _)). reflexivity.
    + eexists. rewrite laid_iff. split; [reflexivity|]. destruct (is_empty (e_id e)); reflexivity.
Qed.
Lemma forall2_map {X Y} (R : X -> Y -> Prop) (g : X -> Y) (H : forall x y, R x y <-> y = g x) l ts :
  Forall2 R l ts <-> ts = map g l.
Proof.
  split.
  - induction 1 as [|x y l' ts' Hx _ IH]; [reflexivity|]. apply H in Hx. subst. reflexivity.
  - intros ->. induction l as [|x l IH]; constructor; [apply H; reflexivity|exact IH].
Qed.
End Facts.

Lemma no_nl_end s : index_byte NL s = None -> nl_at_end s.
Proof.
  intros H a b ->. exfalso. revert H. induction a as [|x a IH]; cbn [app index_byte]; [discriminate|].
  destruct (Ascii.eqb x NL); [discriminate|]. destruct (index_byte NL (a ++ NL :: b)); [discriminate|]. apply IH.
Qed.

(** ** C20: a saved file is its entries laid out at 77 bytes, each once: no
    other file is written *)
Theorem C20_saved_po : forall isp f out,
  saves_po isp f out <->
  exists l ts, Permutation l (vals (f_entries f)) /\ sorted_by_key l /\ Forall2 (po_laid isp) l ts /\ out = concat ts.
Proof.
  intros isp f out. split.
  - intros (l & (P & S) & ->). exists l, (map (po_entry isp) l). repeat split; try assumption.
    apply (forall2_map _ _ (po_laid_iff isp)). reflexivity.
  - intros (l & ts & P & S & F & ->). apply (forall2_map _ _ (po_laid_iff isp)) in F. subst ts.
    exists l. split; [split; assumption|reflexivity].
Qed.
Print Assumptions C20_saved_po.
Theorem C20_saved_pot : forall isp f out,
  saves_pot isp f out <->
  exists l ts, Permutation l (vals (f_entries f)) /\ sorted_by_key l /\ Forall2 (pot_laid isp) l ts /\ out = concat ts.
Proof.
  intros isp f out. split.
  - intros (l & (P & S) & ->). exists l, (map (pot_entry isp) l). repeat split; try assumption.
    apply (forall2_map _ _ (pot_laid_iff isp)). reflexivity.
  - intros (l & ts & P & S & F & ->). apply (forall2_map _ _ (pot_laid_iff isp)) in F. subst ts.
    exists l. split; [split; assumption|reflexivity].
Qed.
Print Assumptions C20_saved_pot.
(** a string of at most 77 bytes without inner newline stays on its line ... *)
Theorem C20_short : forall isp k s t, (length s <= 77)%nat -> nl_at_end s ->
  (laid isp k s t <-> t = k ++ SP :: quote isp s ++ [NL]).
Proof.
  intros isp k s t L N.
  assert (W : wrapped 77 s [s]) by (apply W_one; [exact N|apply L_short; lia]).
  split.
  - intros (ps & W' & ->). rewrite (wrapped_one _ _ _ _ W' W). cbn [map concat]. rewrite app_nil_r. reflexivity.
  - intros ->. exists [s]. split; [exact W|]. cbn [map concat]. rewrite app_nil_r. reflexivity.
Qed.
Print Assumptions C20_short.
(** ... and a longer one does not, if words can be kept apart *)
Theorem C20_long : forall isp k a b t, (77 < length (a ++ SP :: b))%nat -> nl_at_end (a ++ SP :: b) -> ~ In SP b -> b <> [] ->
  (laid isp k (a ++ SP :: b) t <-> t = k ++ SP :: quote isp (a ++ [SP]) ++ NL :: quote isp b ++ [NL]).
Proof.
  intros isp k a b t L N Nb Eb.
  assert (W : wrapped 77 (a ++ SP :: b) [a ++ [SP]; b]) by (apply W_one; [exact N|apply L_cut; [lia|assumption..]]).
  assert (Q : concat (map (fun p => quote isp p ++ [NL]) [a ++ [SP]; b]) = quote isp (a ++ [SP]) ++ NL :: quote isp b ++ [NL])
    by (cbn [map concat]; rewrite app_nil_r, <- app_assoc; reflexivity).
  split.
  - intros (ps & W' & ->). rewrite (wrapped_one _ _ _ _ W' W), Q. reflexivity.
  - intros ->. exists [a ++ [SP]; b]. split; [exact W|]. rewrite Q. reflexivity.
Qed.
Print Assumptions C20_long.
(** non-vacuity: 77 bytes stay, 78 are broken *)
Example C20_saved_case : forall isp,
  (length (repeat "x"%char 74 ++ SP :: B "yz") = 77 /\ length (repeat "x"%char 75 ++ SP :: B "yz") = 78)%nat
  /\ laid isp (B "msgid") (repeat "x"%char 74 ++ SP :: B "yz")
       (B "msgid """ ++ repeat "x"%char 74 ++ B " yz""" ++ [NL])
  /\ laid isp (B "msgid") (repeat "x"%char 75 ++ SP :: B "yz")
       (B "msgid """ ++ repeat "x"%char 75 ++ B " """ ++ NL :: B """yz""" ++ [NL])
  /\ saves_pot isp (add_entry new_file (Build_entry [] [] (B "one") true (B "many") [] []))
       (B "msgid ""one""" ++ NL :: B "msgid_plural ""many""" ++ NL :: B "msgstr[0] """"" ++ NL :: B "msgstr[1] """"" ++ [NL; NL]).
Proof.
  intros isp. split; [split; reflexivity|].
  split; [apply C20_short; [cbn; lia|apply no_nl_end; vm_compute; reflexivity|reflexivity]|].
  split.
  - apply C20_long; [cbn; lia|apply no_nl_end; vm_compute; reflexivity|cbn; intuition discriminate|discriminate|reflexivity].
  - eexists. split; [split; [apply Permutation_refl|]|reflexivity]. cbn. split; [intros x []|exact I].
Qed.
