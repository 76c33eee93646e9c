(** Facts about the order of saved entries. *)
From Coq Require Import Lia ZifyBool ZifyNat ZifyN Permutation.
From Verif Require Import GoStr GoStrFacts GoMap GoMapFacts FileModel FileSpec FileFacts PoModel PoSpec PoReadFacts PoSameFacts
  PoWriteFacts PoCatalogFacts SortFacts XtSpec XtKeyFacts MoModel MoSpec MoFacts MoCatalogFacts PoAnySpec PoAnyFacts OrderSpec.

Lemma lex_less_bltb a b : lex_less a b <-> bltb a b = true.
Proof.
  split.
  - induction 1 as [c s|c d s t L|c s t _ IH]; cbn [bltb]; [reflexivity| |].
    + apply N.ltb_lt in L. rewrite L. reflexivity.
    + rewrite N.ltb_irrefl. exact IH.
  - revert b. induction a as [|x a IH]; intros [|y b]; cbn [bltb]; try discriminate; [constructor|].
    destruct (N.ltb_spec (code x) (code y)) as [L|L]; [constructor; exact L|].
    destruct (N.ltb_spec (code y) (code x)) as [M|M]; [discriminate|]. intros H.
    assert (x = y) as <- by (apply code_inj; lia). apply LL_later, IH, H.
Qed.
Definition cut (s : bytes) : list bytes := concat (map (split_byte ":"%char) (split_byte SP s)).
Lemma cut_nil : cut [] = [[]].
Proof. reflexivity. Qed.
Lemma cut_ne s : cut s <> [].
Proof.
  unfold cut. destruct (split_byte SP s) as [|x l] eqn:E; [exact (fun _ => split_byte_nonempty _ _ E)|].
  cbn [map concat]. intros H. apply app_eq_nil in H as [H _]. exact (split_byte_nonempty _ _ H).
Qed.
Lemma split_cons c d s : c <> d -> exists x l, split_byte c s = x :: l /\ split_byte c (d :: s) = (d :: x) :: l.
Proof.
  intros N. cbn [split_byte]. destruct (Ascii.eqb_spec d c) as [->|_]; [congruence|].
  destruct (split_byte c s) as [|x l] eqn:E; [exfalso; exact (split_byte_nonempty _ _ E)|]. eauto.
Qed.
Lemma cut_app w s c : whole w -> c = SP \/ c = ":"%char -> cut (w ++ c :: s) = w :: cut s.
Proof.
  intros [W1 W2] [-> | ->]; unfold cut.
  - rewrite split_byte_app by exact W1. cbn [map concat]. rewrite split_byte_no by exact W2. reflexivity.
  - assert (E : exists x l, split_byte SP s = x :: l /\ split_byte SP (w ++ ":"%char :: s) = (w ++ ":"%char :: x) :: l).
    { clear W2. induction w as [|d w IH]; cbn [app].
      - apply split_cons. discriminate.
      - destruct IH as (x & l & E & E2); [intros H; apply W1; right; exact H|].
        destruct (split_cons SP d (w ++ ":"%char :: s)) as (x' & l' & E3 & E4); [intros E0; apply W1; left; symmetry; exact E0|].
        rewrite E2 in E3. injection E3 as <- <-. exists x, l. auto. }
    destruct E as (x & l & -> & ->). cbn [map concat]. rewrite split_byte_app by exact W2. reflexivity.
Qed.
Lemma cut_whole w : whole w -> cut w = [w].
Proof. intros [W1 W2]. unfold cut. rewrite split_byte_no by exact W1. cbn [map concat]. rewrite split_byte_no by exact W2. reflexivity. Qed.
Lemma pieces_cut s ws : pieces s ws <-> ws = cut s.
Proof.
  split.
  - induction 1 as [w W|w c s ws W C _ IH]; [symmetry; apply cut_whole, W|]. rewrite cut_app by assumption. congruence.
  - intros ->. assert (H : forall n s, (length s <= n)%nat -> pieces s (cut s)); [|apply (H (length s)); lia].
    clear s. induction n as [|n IH]; intros s L.
    { destruct s; [|cbn [length] in L; lia]. apply (PC_last []). split; intros []. }
    assert (D : whole s \/ exists w c t, whole w /\ (c = SP \/ c = ":"%char) /\ s = w ++ c :: t).
    { clear. induction s as [|d s IH]; [left; split; intros []|].
      destruct (Ascii.eqb_spec d SP) as [->|N1]; [right; exists [], SP, s; repeat split; auto; intros []|].
      destruct (Ascii.eqb_spec d ":"%char) as [->|N2]; [right; exists [], ":"%char, s; repeat split; auto; intros []|].
      destruct IH as [[W1 W2]|(w & c & t & [W1 W2] & C & ->)].
      - left. split; intros [E|H]; auto.
      - right. exists (d :: w), c, t. repeat split; auto; intros [E|H]; auto. }
    destruct D as [W|(w & c & t & W & C & ->)]; [rewrite cut_whole by exact W; constructor; exact W|].
    rewrite cut_app by assumption. constructor; [exact W|exact C|]. apply IH. rewrite app_length in L. cbn [length] in L. lia.
Qed.
Lemma right_in_ten_pad x t : right_in_ten x t <-> t = pad10 x.
Proof.
  unfold pad10. split.
  - intros (k & -> & H & L). rewrite app_length, repeat_length in H, L. f_equal. f_equal. destruct H; lia.
  - intros ->. exists (10 - length x)%nat. rewrite app_length, repeat_length. split; [reflexivity|]. lia.
Qed.
Lemma dec_Z_pos z : (0 <= z)%Z -> dec_Z z = dec (Z.to_N z).
Proof. destruct z; [reflexivity|reflexivity|lia]. Qed.
Lemma dec_Z_neg z : (z < 0)%Z -> dec_Z z = "-"%char :: dec (Z.to_N (- z)).
Proof. destruct z; [lia|lia|reflexivity]. Qed.
Lemma piece_text_fun w t : piece_text w t <-> t = sort_field w.
Proof.
  unfold sort_field. split.
  - intros [w' z ds t' H L -> R|w' z ds t' H L -> R|w' H]; try apply right_in_ten_pad in R; try apply parse_int_iff in H.
    + rewrite H, dec_Z_pos by exact L. exact R.
    + rewrite H, dec_Z_neg by exact L. exact R.
    + destruct (parse_int w') as [z|] eqn:E; [|reflexivity]. apply parse_int_iff in E. exfalso. exact (H z E).
  - intros ->. destruct (parse_int w) as [z|] eqn:E.
    + apply parse_int_iff in E. destruct (Z_lt_le_dec z 0) as [L|L].
      * eapply PT_neg; [exact E|exact L|reflexivity|]. apply right_in_ten_pad. rewrite dec_Z_neg by exact L. reflexivity.
      * eapply PT_num; [exact E|exact L|reflexivity|]. apply right_in_ten_pad. rewrite dec_Z_pos by exact L. reflexivity.
    + apply PT_word. intros z H. apply parse_int_iff in H. congruence.
Qed.
Lemma Forall2_fun {A B} (R : A -> B -> Prop) (g : A -> B) : (forall a b, R a b <-> b = g a) ->
  forall l m, Forall2 R l m <-> m = map g l.
Proof.
  intros H. induction l as [|a l IH]; intros m; split.
  - intros F. inversion F. reflexivity.
  - intros ->. constructor.
  - intros F. inversion F as [|a' b l' m' F1 F2]; subst. cbn [map]. apply H in F1. apply IH in F2. congruence.
  - intros ->. cbn [map]. constructor; [apply H|apply IH]; reflexivity.
Qed.
Lemma concat_map_map {A B} (g : A -> B) (l : list (list A)) : map g (concat l) = concat (map (map g) l).
Proof. apply concat_map. Qed.
Lemma line_string_1_cut s : line_string_1 (B "#:" ++ s) = B "#:" ++ concat (map sort_field (cut s)).
Proof.
  unfold line_string_1, cut. rewrite trim_prefix_app. rewrite concat_map, map_map. reflexivity.
Qed.
Lemma comment_text_fun c t : comment_text c t <-> t = if has_prefix (B "#:") c then line_string_1 c else [].
Proof.
  split.
  - intros [s ws ts P F|c' N].
    + apply pieces_cut in P as ->. apply (Forall2_fun _ _ piece_text_fun) in F as ->.
      rewrite (proj2 (starts_prefix _ _)) by (exists s; reflexivity). symmetry. apply line_string_1_cut.
    + destruct (has_prefix (B "#:") c') eqn:E; [|reflexivity]. exfalso. apply N, starts_prefix, E.
  - intros ->. destruct (has_prefix (B "#:") c) eqn:E.
    + apply starts_prefix in E as (s & ->). rewrite line_string_1_cut. eapply CT_ref; [apply pieces_cut; reflexivity|].
      apply (Forall2_fun _ _ piece_text_fun). reflexivity.
    + apply CT_other. intros H. apply starts_prefix in H. congruence.
Qed.
Lemma order_text_key e t : order_text e t <-> t = sort_key e.
Proof.
  unfold sort_key, is_header. split.
  - intros [e' H|e' ts H F].
    + rewrite H. reflexivity.
    + apply (Forall2_fun _ _ comment_text_fun) in F as ->. unfold line_string, e_key, key. destruct (e_id e'); [congruence|]. reflexivity.
  - intros ->. destruct (e_id e) as [|x i] eqn:E; cbn [is_empty]; [apply OT_header, E|].
    unfold line_string, e_key, key. apply OT_entry; [congruence|]. apply (Forall2_fun _ _ comment_text_fun). reflexivity.
Qed.
Lemma tied_key e e' : tied e e' <-> sort_key e = sort_key e'.
Proof.
  split.
  - intros (t & H & H'). apply order_text_key in H, H'. congruence.
  - intros E. exists (sort_key e). split; apply order_text_key; congruence.
Qed.
Lemma in_order_sorted es : in_order es <-> sorted_by_key es.
Proof.
  split.
  - induction es as [|e es IH]; intros H; [exact I|]. split.
    + intros x Hx. apply List.in_split in Hx as (a & b & ->). destruct (bltb (sort_key x) (sort_key e)) eqn:E; [|reflexivity].
      exfalso. apply (H [] e a x b _ _ eq_refl (proj2 (order_text_key _ _) eq_refl) (proj2 (order_text_key _ _) eq_refl)).
      apply lex_less_bltb, E.
    + apply IH. intros a x b y c tx ty ->. apply (H (e :: a) x b y c tx ty). reflexivity.
  - intros St a x b y c tx ty -> Hx Hy L. apply order_text_key in Hx, Hy. subst. apply lex_less_bltb in L.
    revert St. induction a as [|z a IH]; intros [S1 S2]; [|apply IH, S2].
    rewrite (S1 y) in L; [discriminate|]. apply in_or_app; right; left; reflexivity.
Qed.
(** exchanging two neighbours that tie *)
Lemma sorted_ties l : sorted_by_key l -> ~ NoDup (map sort_key l) ->
  exists a e e' b, l = a ++ e :: e' :: b /\ sort_key e = sort_key e'.
Proof.
  induction l as [|x l IH]; intros St N; [exfalso; apply N; constructor|]. destruct St as [S1 S2].
  destruct (in_dec bytes_dec (sort_key x) (map sort_key l)) as [I|I].
  - destruct l as [|y l]; [destruct I|]. exists [], x, y, l. split; [reflexivity|].
    apply in_map_iff in I as (z & Ez & [->|Hz]); [congruence|]. destruct S2 as [S2 _].
    apply bltb_trichotomy; [rewrite <- Ez; apply S2, Hz|apply S1; left; reflexivity].
  - destruct IH as (a & e & e' & b & -> & E); [exact S2|intros H; apply N; constructor; assumption|].
    exists (x :: a), e, e', b. auto.
Qed.
Lemma sorted_swap a e e' b : sorted_by_key (a ++ e :: e' :: b) -> sort_key e = sort_key e' -> sorted_by_key (a ++ e' :: e :: b).
Proof.
  intros St E. induction a as [|x a IH].
  - destruct St as [S1 [S2 S3]]. cbn [app sorted_by_key] in *. split; [|split; [|exact S3]].
    + intros x [<-|Hx]; [rewrite E; apply bltb_irrefl|apply S2, Hx].
    + intros x Hx. apply S1. right. exact Hx.
  - destruct St as [S1 S2]. split; [|apply IH, S2]. intros y Hy. apply S1.
    rewrite in_app_iff in *. cbn [In] in *. tauto.
Qed.
Lemma swap_perm {A} (a : list A) e e' b : Permutation (a ++ e' :: e :: b) (a ++ e :: e' :: b).
Proof. apply Permutation_app_head, perm_swap. Qed.
Lemma nodup_dec (l : list bytes) : NoDup l \/ ~ NoDup l.
Proof. destruct (ListDec.NoDup_dec bytes_dec l); auto. Qed.
(** the entry that is read first *)
Lemma mput_head k (v : entry) m : m <> [] -> hd_error (keys (mput k v m)) = hd_error (keys m).
Proof. destruct m as [|[k0 v0] m]; [congruence|]. intros _. cbn [mput]. destruct (beq k k0) eqn:E; [apply beq_eq in E as ->|]; reflexivity. Qed.
Lemma mput_ne k (v : entry) m : mput k v m <> [].
Proof. destruct m as [|[k0 v0] m]; cbn [mput]; [discriminate|]. destruct (beq k k0); discriminate. Qed.
Lemma read_first x l : hd_error (keys (f_entries (fold_left (addif true) (x :: l) new_file))) = Some (e_key x).
Proof.
  cbn [fold_left]. assert (H : forall es f, f_entries f <> [] -> hd_error (keys (f_entries f)) = Some (e_key x) ->
    hd_error (keys (f_entries (fold_left (addif true) es f))) = Some (e_key x)).
  { induction es as [|e es IH]; intros f N H; [exact H|]. cbn [fold_left]. apply IH.
    - unfold addif. cbn [orb]. rewrite add_entry_entries. apply mput_ne.
    - unfold addif. cbn [orb]. rewrite add_entry_entries, mput_head by exact N. exact H. }
  assert (E : f_entries (addif true new_file x) = [(e_key x, x)]) by (unfold addif; cbn [orb]; apply add_entry_entries).
  apply H; rewrite E; [discriminate|reflexivity].
Qed.
Section Ties.
Variable isp : N -> bool.
Lemma po_no_swap e e' : (forall c, In c (e_cmts e) \/ In c (e_cmts e') -> harmless c) -> e_key e <> e_key e' ->
  po_entry isp e ++ po_entry isp e' <> po_entry isp e' ++ po_entry isp e.
Proof.
  intros G N E.
  pose proof (read_parts isp true [e; e'] ltac:(discriminate)) as R1. pose proof (read_parts isp true [e'; e] ltac:(discriminate)) as R2.
  cbn [map concat] in R1, R2. rewrite !app_nil_r in R1, R2. rewrite <- E in R2.
  rewrite R1 in R2 by (intros x c [<-|[<-|[]]]; auto).
  specialize (R2 ltac:(intros x c [<-|[<-|[]]]; auto)). injection R2 as R2.
  pose proof (read_first (kept e) (leftovers e ++ parts e')) as H1. pose proof (read_first (kept e') (leftovers e' ++ parts e)) as H2.
  unfold parts in R2, H1, H2. cbn [app fold_left] in R2, H1, H2. rewrite R2 in H1. rewrite H1 in H2. injection H2 as H2. exact (N H2).
Qed.
Lemma read_pot_kept l : l <> [] -> (forall e c, In e l -> In c (e_cmts e) -> harmless c) ->
  read_pot (concat (map (pot_entry isp) l)) = PoOk (fold_left (addif true) (map kept_template l) new_file).
Proof.
  intros Nl Gl. rewrite (map_ext _ _ (pot_entry_lines isp)). unfold read_pot.
  rewrite read_tidy; [|apply pot_lines_bare|apply pot_bare_clean|apply pot_bare_tidy|apply pot_lines_ne|exact Nl|exact Gl].
  rewrite <- (map_ext _ _ (pot_entry_lines isp)). rewrite <- (map_map tidy template_of).
  apply read_pot_text; [destruct l; [congruence|discriminate]|].
  intros x Hx. apply in_map_iff in Hx as (e & <- & He). split.
  - apply comment_lines_ok. intros c. apply Gl, He.
  - cbn [tidy e_plural e_id2]. destruct (e_plural e); auto.
Qed.
Lemma pot_no_swap e e' : (forall c, In c (e_cmts e) \/ In c (e_cmts e') -> harmless c) -> e_key e <> e_key e' ->
  pot_entry isp e ++ pot_entry isp e' <> pot_entry isp e' ++ pot_entry isp e.
Proof.
  intros G N E.
  pose proof (read_pot_kept [e; e'] ltac:(discriminate)) as R1. pose proof (read_pot_kept [e'; e] ltac:(discriminate)) as R2.
  cbn [map concat] in R1, R2. rewrite !app_nil_r in R1, R2. rewrite <- E in R2.
  rewrite R1 in R2 by (intros x c [<-|[<-|[]]]; auto).
  specialize (R2 ltac:(intros x c [<-|[<-|[]]]; auto)). injection R2 as R2.
  pose proof (read_first (kept_template e) [kept_template e']) as H1. pose proof (read_first (kept_template e') [kept_template e]) as H2.
  cbn [fold_left] in H1, H2. rewrite R2 in H1. rewrite H1 in H2. injection H2 as H2. exact (N H2).
Qed.
(** a text made of the texts of the entries depends on their order if some tie *)
Lemma ties_differ (text : entry -> bytes) f : filed f ->
  (forall e e', In e (vals (f_entries f)) -> In e' (vals (f_entries f)) -> e_key e <> e_key e' -> text e ++ text e' <> text e' ++ text e) ->
  (forall l l', sorted_entries f l -> sorted_entries f l' -> concat (map text l) = concat (map text l')) ->
  NoDup (map sort_key (vals (f_entries f))).
Proof.
  intros F D U. destruct (nodup_dec (map sort_key (vals (f_entries f)))) as [N|N]; [exact N|]. exfalso.
  destruct (isort_sorted (vals (f_entries f))) as [P St]. set (l := isort _) in *.
  destruct (sorted_ties l St) as (a & e & e' & b & El & K).
  { intros H. apply N. apply (Permutation_NoDup (Permutation_map sort_key P)), H. }
  pose proof (nodup_keys f l F P) as Nk. rewrite El, map_app in Nk. cbn [map] in Nk.
  assert (Nee : e_key e <> e_key e').
  { intros E. apply NoDup_remove_2 in Nk. apply Nk. apply in_or_app. right. left. congruence. }
  assert (Ie : In e (vals (f_entries f)) /\ In e' (vals (f_entries f))).
  { split; apply (Permutation_in _ P); rewrite El; apply in_or_app; right; [left|right; left]; reflexivity. }
  apply (D e e' (proj1 Ie) (proj2 Ie) Nee).
  specialize (U l (a ++ e' :: e :: b)). rewrite El in U at 1. rewrite El in P, St, U.
  assert (H : concat (map text (a ++ e :: e' :: b)) = concat (map text (a ++ e' :: e :: b))).
  { apply U; (split; [|]); auto; [etransitivity; [apply swap_perm|exact P]|apply sorted_swap; assumption]. }
  rewrite !map_app, !concat_app in H. apply app_inv_head in H. cbn [map concat] in H.
  rewrite !app_assoc in H. apply app_inv_tail in H. exact H.
Qed.
End Ties.
(** [.mo] files *)
Lemma mo_bytes_same l l' : map mo_id l = map mo_id l' -> map mo_str l = map mo_str l' -> mo_bytes l = mo_bytes l'.
Proof.
  intros H1 H2. unfold mo_bytes. rewrite H1, H2. replace (length l) with (length l'); [reflexivity|].
  apply (f_equal (@length _)) in H1. rewrite !map_length in H1. congruence.
Qed.
Lemma stored_id_fun e s : stored_id e s <-> s = mo_id e.
Proof.
  unfold stored_id, mo_id. split.
  - intros (a & b & A & Bq & ->). rewrite app_assoc. f_equal.
    + destruct A as [[-> ->]|[N ->]]; [reflexivity|]. destruct (e_ctxt e); [congruence|]. cbn [is_empty negb]. rewrite <- app_assoc. reflexivity.
    + destruct Bq as [[-> ->]|[-> ->]]; reflexivity.
  - intros ->. exists (match e_ctxt e with [] => [] | c => c ++ [EOT] end), (if e_plural e then NUL :: e_id2 e else []).
    split; [destruct (e_ctxt e); [left|right]; split; auto; discriminate|].
    split; [destruct (e_plural e); auto|]. rewrite app_assoc. f_equal. destruct (e_ctxt e); [reflexivity|]. cbn [is_empty negb].
    rewrite <- app_assoc. reflexivity.
Qed.
Lemma stored_str_fun e s : stored_str e s <-> s = mo_str e.
Proof.
  unfold stored_str, mo_str. split.
  - intros [[-> ->]|[N ->]]; [reflexivity|]. destruct (e_strn e); [congruence|reflexivity].
  - intros ->. destruct (e_strn e); [left|right]; split; auto; discriminate.
Qed.
(** the order depends on the order texts only *)
Lemma sorted_ext l l' : map sort_key l = map sort_key l' -> sorted_by_key l -> sorted_by_key l'.
Proof.
  revert l'. induction l as [|x l IH]; intros [|y l'] E St; try discriminate; [exact I|].
  cbn [map] in E. injection E as E1 E2. destruct St as [S1 S2]. split; [|apply IH; assumption].
  intros z Hz. apply (in_map sort_key) in Hz. rewrite <- E2 in Hz. apply in_map_iff in Hz as (w & Ew & Hw).
  rewrite <- Ew, <- E1. apply S1, Hw.
Qed.
Lemma sorted_keys : forall l l', Permutation (map sort_key l) (map sort_key l') -> sorted_by_key l -> sorted_by_key l' ->
  map sort_key l = map sort_key l'.
Proof.
  induction l as [|x l IH]; intros l' P S1 S2.
  - apply Permutation_nil in P. symmetry. exact P.
  - destruct l' as [|y l']; [symmetry in P; apply Permutation_nil in P; discriminate|]. cbn [map] in *.
    assert (E : sort_key x = sort_key y).
    { assert (Hy : In (sort_key y) (sort_key x :: map sort_key l)) by (apply (Permutation_in _ (Permutation_sym P)); left; reflexivity).
      assert (Hx : In (sort_key x) (sort_key y :: map sort_key l')) by (apply (Permutation_in _ P); left; reflexivity).
      destruct Hy as [Hy|Hy]; [exact Hy|]. destruct Hx as [Hx|Hx]; [congruence|].
      apply in_map_iff in Hy as (a & Ea & Ha). apply in_map_iff in Hx as (b & Eb & Hb).
      apply bltb_trichotomy; [rewrite <- Eb; apply S2, Hb|rewrite <- Ea; apply S1, Ha]. }
    rewrite E in *. f_equal. apply IH; [apply (Permutation_cons_inv P)|apply S1|apply S2].
Qed.
(** two entries may be saved in the order that their order texts do not forbid *)
Lemma before_possible f e e' : In e (vals (f_entries f)) -> In e' (vals (f_entries f)) -> e <> e' ->
  bltb (sort_key e') (sort_key e) = false -> exists a b c, sorted_entries f (a ++ e :: b ++ e' :: c).
Proof.
  intros He He' N L. destruct (isort_sorted (vals (f_entries f))) as [P St]. set (l := isort _) in *.
  apply (Permutation_in _ (Permutation_sym P)) in He, He'. apply List.in_split in He as (a & r & E).
  rewrite E in He'. apply in_app_or in He' as [H|[H|H]]; [|contradiction|].
  - apply List.in_split in H as (a1 & b & ->). rewrite <- app_assoc in E. cbn [app] in E.
    assert (K : sort_key e = sort_key e').
    { apply bltb_trichotomy; [|exact L]. clear - E St. clearbody l. revert l E St. induction a1 as [|z a1 IH]; intros l -> [S1 S2].
      - apply S1. apply in_or_app. right. left. reflexivity.
      - apply (IH _ eq_refl S2). }
    exists a1, b, r. split.
    + etransitivity; [|exact P]. rewrite E. apply Permutation_app_head.
      etransitivity; [apply Permutation_cons; [reflexivity|]; apply Permutation_sym, Permutation_middle|].
      etransitivity; [apply perm_swap|]. apply Permutation_cons; [reflexivity|]. apply Permutation_middle.
    + apply (sorted_ext l); [|exact St]. rewrite E, !map_app. cbn [map]. rewrite !map_app. cbn [map]. rewrite K. reflexivity.
  - apply List.in_split in H as (b & c & ->). exists a, b, c. rewrite <- E. split; assumption.
Qed.
