(** Entries read from a file can be written; loading and saving keeps them. *)
From Coq Require Import Lia Permutation.
From Verif Require Import GoStr GoStrFacts GoQuote GoMap GoMapFacts FileModel FileSpec FileFacts WrapModel WrapFacts
  PoModel PoSpec PoReadFacts PoSameFacts PoWriteFacts PoCatalogFacts SortFacts.

Definition read_inv (s : pstate) (e : entry) : Prop :=
  (forall c, In c (e_cmts e) -> comment_ok c)
  /\ (e_plural e = true \/ e_id2 e = [])
  /\ (s = SId2 -> e_plural e = true)
  /\ match s with SStr => e_strn e = [] | SStrN => e_str e = [] | _ => e_str e = [] /\ e_strn e = [] end.
Lemma read_inv_zero : read_inv SNone zero_entry.
Proof. split; [intros c []|]. split; [right; reflexivity|]. split; [discriminate|split; reflexivity]. Qed.
Lemma read_inv_ok s e : read_inv s e -> po_ok e.
Proof.
  intros (H1 & H2 & _ & H3). split; [exact H1|]. split; [exact H2|].
  destruct s; try (left; apply H3); try (left; exact H3); right; exact H3.
Qed.
Lemma action_inv s e l s' e' : read_inv s e -> clean l -> line_action s e l = ANext s' e' -> read_inv s' e'.
Proof.
  intros (H1 & H2 & H3 & H4) [C1 C2]. unfold line_action.
  destruct (is_empty _); [intros [= <- <-]; split; auto|].
  destruct (has_prefix P_cmt l) eqn:Ec.
  { destruct s; cbn [st_eqb negb]; try discriminate. intros [= <- <-].
    split; [|split; [exact H2|split; [discriminate|exact H4]]].
    intros c I. apply in_app_or in I as [I|[<-|[]]]; [apply H1, I|].
    split; [|split; assumption]. apply has_prefix_iff in Ec as [t ->]. exists t. reflexivity. }
  destruct (has_prefix P_ctxt l).
  { destruct s; cbn [st_eqb negb]; try discriminate. unfold on_data. destruct (remove_prefix_unquote _ _) as [d|]; [|discriminate].
    intros [= <- <-]. split; [exact H1|split; [exact H2|split; [discriminate|exact H4]]]. }
  destruct (has_prefix P_id2 l).
  { unfold on_data. destruct (remove_prefix_unquote _ _) as [d|]; destruct s; cbn [equals_any existsb st_eqb orb]; try discriminate;
    intros [= <- <-]; (split; [exact H1|split; [left; reflexivity|split; [reflexivity|exact H4]]]). }
  destruct (has_prefix P_id l).
  { unfold on_data. destruct (remove_prefix_unquote _ _) as [d|]; destruct s; cbn [equals_any existsb st_eqb orb]; try discriminate;
    intros [= <- <-]; (split; [exact H1|split; [exact H2|split; [discriminate|exact H4]]]). }
  destruct (has_prefix (P_strn _) l).
  { unfold on_data. destruct (remove_prefix_unquote _ _) as [d|]; destruct s; cbn [equals_any existsb st_eqb orb]; try discriminate;
    intros [= <- <-]; (split; [exact H1|split; [exact H2|split; [discriminate|apply H4]]]). }
  destruct (has_prefix P_str l).
  { unfold on_data. destruct (remove_prefix_unquote _ _) as [d|]; destruct s; cbn [equals_any existsb st_eqb orb]; try discriminate;
    intros [= <- <-]; (split; [exact H1|split; [exact H2|split; [discriminate|apply H4]]]). }
  destruct (has_prefix [DQ] l); [|discriminate].
  unfold on_data. destruct (remove_prefix_unquote _ _) as [d|]; [|discriminate].
  destruct s.
  - intros [= <- <-]. split; auto.
  - intros [= <- <-]. split; [exact H1|split; [exact H2|split; [discriminate|exact H4]]].
  - intros [= <- <-]. split; [exact H1|split; [left; apply H3; reflexivity|split; [intros _; apply H3; reflexivity|exact H4]]].
  - intros [= <- <-]. split; [exact H1|split; [exact H2|split; [discriminate|exact H4]]].
  - unfold app_strn. destruct (app_last (e_strn e) d); [|discriminate]. cbn [option_map].
    intros [= <- <-]. split; [exact H1|split; [exact H2|split; [discriminate|exact H4]]].
  - intros [= <- <-]. split; [exact H1|split; [exact H2|split; [discriminate|exact H4]]].
Qed.
(** the entries added while reading *)
Lemma mach_adds pot : forall lines f s e f', read_inv s e -> (forall l, In l lines -> clean l) ->
  mach pot f s e lines = PoOk f' ->
  exists es, f' = fold_left add_entry es f /\ forall x, In x es -> po_ok x /\ (pot = false -> translated x).
Proof.
  assert (one : forall f s e, read_inv s e ->
    exists es, addif pot f e = fold_left add_entry es f /\ forall x, In x es -> po_ok x /\ (pot = false -> translated x)).
  { intros f s e I. unfold addif. destruct (pot || is_valid e) eqn:V.
    - exists [e]. split; [reflexivity|]. intros x [<-|[]]. split; [eapply read_inv_ok, I|].
      intros ->. apply translated_valid, V.
    - exists []. split; [reflexivity|intros x []]. }
  induction lines as [|l r IH]; intros f s e f' I C; cbn [mach].
  - intros [= <-]. eapply one, I.
  - assert (Cl : clean l) by (apply C; left; reflexivity).
    assert (Cr : forall x, In x r -> clean x) by (intros x Hx; apply C; right; exact Hx).
    destruct (line_action s e l) as [s' e'| | |] eqn:E; [apply IH; [exact (action_inv _ _ _ _ _ I Cl E)|exact Cr]| |destruct pot; discriminate|discriminate].
    destruct (line_action SNone zero_entry l) as [s' e'| | |] eqn:E0; [|discriminate|destruct pot; discriminate|discriminate].
    intros M. apply IH in M; [|exact (action_inv _ _ _ _ _ read_inv_zero Cl E0)|exact Cr].
    destruct M as (es & -> & H). destruct (one f s e I) as (es0 & -> & H0).
    exists (es0 ++ es). rewrite fold_left_app. split; [reflexivity|].
    intros x J. apply in_app_or in J as [J|J]; auto.
Qed.
Lemma split_byte_in c s x y : In x (split_byte c s) -> In y x -> In y s.
Proof.
  revert x. induction s as [|a s IH]; intros x; cbn [split_byte].
  - intros [<-|[]] [].
  - destruct (Ascii.eqb a c).
    + intros [<-|H] I; [destruct I|right; apply (IH x H I)].
    + destruct (split_byte c s) as [|z r] eqn:E; [destruct (split_byte_nonempty c s E)|].
      intros [<-|H] I; [destruct I as [->|I]; [left; reflexivity|right; apply (IH z); [left; reflexivity|exact I]]|].
      right. apply (IH x); [right; exact H|exact I].
Qed.
Lemma lines_clean content l : In l (po_lines_of content) -> clean l.
Proof.
  unfold po_lines_of. intros H. split; intros I.
  - exact (split_byte_pieces NL _ l H I).
  - apply (split_byte_in _ _ _ _ H) in I. unfold remove_byte in I. apply filter_In in I as [_ K].
    rewrite Ascii.eqb_refl in K. discriminate.
Qed.
Theorem read_adds pot content f : read_po_ pot content = PoOk f ->
  exists es, f = fold_left add_entry es new_file /\ forall x, In x es -> po_ok x /\ (pot = false -> translated x).
Proof.
  destruct content as [|c t]; [discriminate|]. rewrite read_po_mach by discriminate.
  apply mach_adds; [apply read_inv_zero|]. intros l. apply lines_clean.
Qed.
Lemma vals_adds es e : In e (vals (f_entries (fold_left add_entry es new_file))) -> In e es.
Proof.
  induction es as [|x es IH] using rev_ind; [intros []|].
  rewrite fold_left_app. cbn [fold_left]. rewrite add_entry_entries. intros H. unfold vals in H.
  apply in_map_iff in H as ([k y] & <- & H). apply in_or_app. apply in_mput in H as [[= -> ->]|H]; [right; left; reflexivity|left].
  apply IH. unfold vals. apply in_map_iff. exists (k, y). auto.
Qed.
Definition raw (s : bytes) (_ : list nat) : bytes := s.
Lemma run_adds es : run raw (map OAdd es) = fold_left add_entry es new_file.
Proof.
  unfold run. generalize new_file. induction es as [|x l IH]; intros g; [reflexivity|]. cbn [map fold_left]. apply IH.
Qed.
Lemma built_text f : built f -> exists t, (forall k, fst (get_header k f) = header_value t k)
  /\ f_plural (init_plural f) = Some (rule_of t).
Proof.
  intros [es ->]. rewrite <- run_adds. destruct (header_text_ex raw (map OAdd es)) as [t H].
  exists t. split; [intros k; apply run_header, H|apply run_plural, H].
Qed.
Lemma same_headers f f' : built f -> built f' ->
  (forall k, fst (get_header k f) = fst (get_header k f')) -> f_plural (init_plural f) = f_plural (init_plural f').
Proof.
  intros B B' H. destruct (built_text f B) as (t & H1 & P1). destruct (built_text f' B') as (t' & H2 & P2).
  rewrite P1, P2. unfold rule_of. rewrite <- H1, <- H2, H. reflexivity.
Qed.
Lemma same_entries_answers f f' : built f -> built f' ->
  (forall k, mget k (f_entries f) = mget k (f_entries f')) ->
  (forall k, fst (get_header k f) = fst (get_header k f')) -> same_answers f f'.
Proof.
  intros B B' E H. split; [intros k; rewrite E; reflexivity|]. split; [|split; [exact H|]].
  - unfold lang. specialize (H H_language). destruct (get_header H_language f), (get_header H_language f'). cbn [fst] in *. congruence.
  - intros A fmt c i i2 n args. pose proof (same_headers f f' B B' H) as P. split.
    + unfold f_x. rewrite E. reflexivity.
    + unfold f_xn64. rewrite E, P. destruct (mget (key c i) (f_entries f')) as [e|]; [|reflexivity].
      destruct (_ && _); [reflexivity|]. destruct (f_plural (init_plural f')) as [p|]; [|reflexivity].
      destruct (_ <=? _)%Z; [reflexivity|]. destruct (_ || _); [reflexivity|].
      destruct (nth_error _ _) as [s|]; [|reflexivity]. destruct (is_empty s); reflexivity.
Qed.
Lemma fold_addif_valid l f : (forall e, In e l -> translated e) -> fold_left (addif false) l f = fold_left add_entry l f.
Proof.
  revert f. induction l as [|e l IH]; intros f H; [reflexivity|]. cbn [fold_left]. unfold addif at 2.
  rewrite (proj2 (translated_valid e) (H e (or_introl eq_refl))). cbn [orb].
  apply IH. intros x I. apply H. right. exact I.
Qed.
Lemma filed_nodup f : filed f -> NoDup (vals (f_entries f)).
Proof.
  intros [N F]. apply (NoDup_map_inv e_key).
  replace (map e_key (vals (f_entries f))) with (keys (f_entries f)); [exact N|].
  unfold keys, vals. rewrite map_map. apply map_ext_in. intros [k e] I. apply F, I.
Qed.
Lemma filed_same f f' : filed f -> filed f' -> (forall k, mget k (f_entries f) = mget k (f_entries f')) ->
  Permutation (vals (f_entries f)) (vals (f_entries f')).
Proof.
  intros F F' E. apply NoDup_Permutation; try (apply filed_nodup; assumption).
  intros e. rewrite !filed_in by assumption. rewrite E. reflexivity.
Qed.
Section Load.
Variables (isp : N -> bool) (content : bytes) (f : file) (out : bytes).
Hypothesis R : read_po content = PoOk f.
Hypothesis Ne : f_entries f <> [].
Hypothesis W : saves_po isp f out.
Lemma load_filed : built f /\ filed f /\ forall e, In e (vals (f_entries f)) -> po_ok e /\ translated e.
Proof.
  pose proof (read_built _ _ _ R) as B. split; [exact B|]. split; [apply built_filed, B|].
  destruct (read_adds _ _ _ R) as (es & -> & H). intros e I. apply vals_adds in I. destruct (H e I) as [H1 H2]. auto.
Qed.
Lemma load_reread : exists l, sorted_entries f l /\ out = concat (map (po_entry isp) l)
  /\ read_po out = PoOk (fold_left add_entry l new_file)
  /\ forall k, mget k (f_entries (fold_left add_entry l new_file)) = mget k (f_entries f).
Proof.
  destruct load_filed as (B & F & H). destruct W as (l & [P Sl] & ->).
  assert (Gl : forall x, In x l -> po_ok x /\ translated x) by (intros x Hx; apply H, (Permutation_in x P), Hx).
  assert (Nl : l <> []).
  { intros ->. apply Permutation_nil in P. unfold vals in P. apply map_eq_nil in P. congruence. }
  assert (Rl : read_po (concat (map (po_entry isp) l)) = PoOk (fold_left add_entry l new_file)).
  { rewrite <- fold_addif_valid by (intros e I; apply Gl, I). apply read_po_text; [exact Nl|]. intros x I. apply Gl, I. }
  exists l. split; [split; assumption|]. split; [reflexivity|]. split; [exact Rl|].
  destruct (po_round_trip isp f (concat (map (po_entry isp) l)) F (fun e I => proj1 (H e I)) Ne W) as (f' & R' & _ & G).
  rewrite Rl in R'. injection R' as <-. intros k.
  destruct (mget k (f_entries f)) as [e|] eqn:E.
  - apply G. split; [exact E|]. apply H. pose proof (filed_get _ _ _ F E) as ->. apply filed_in; assumption.
  - destruct (mget k (f_entries (fold_left add_entry l new_file))) as [e|] eqn:E'; [|reflexivity].
    apply G in E' as [E' _]. congruence.
Qed.
(** one header entry, in effect *)
Hypothesis One : forall e, In e (vals (f_entries f)) -> e_id e = [] -> e_ctxt e = [].
Definition head_text (g : file) : bytes := f_x raw g [] [] [].
Lemma load_headers l k : sorted_entries f l ->
  fst (get_header k (fold_left add_entry l new_file)) = header_value (head_text f) k.
Proof.
  intros [P Sl]. destruct load_filed as (B & F & H). rewrite <- run_adds. unfold head_text, f_x.
  destruct (mget (key [] []) (f_entries f)) as [h|] eqn:E.
  - assert (I : In h (vals (f_entries f))).
    { pose proof (filed_get _ _ _ F E) as K. rewrite K in E. apply filed_in; assumption. }
    assert (Kh : e_ctxt h = [] /\ e_id h = []).
    { pose proof (filed_get _ _ _ F E) as K. apply joined_header. symmetry. exact K. }
    destruct Kh as [Hc Hi].
    assert (Il : In h l) by (apply (Permutation_in h (Permutation_sym P)), I).
    apply in_split in Il as (a & b & El).
    assert (a = []) as ->.
    { destruct a as [|x a]; [reflexivity|exfalso].
      pose proof (sorted_header l (x :: a) h b Sl El Hi x (or_introl eq_refl)) as Hx.
      assert (Ix : In x (vals (f_entries f))) by (apply (Permutation_in x P); rewrite El; left; reflexivity).
      pose proof (One x Ix Hx) as Cx. apply filed_in in Ix; [|exact F]. unfold e_key in Ix. rewrite Cx, Hx, E in Ix.
      injection Ix as <-.
      pose proof (filed_nodup f F) as ND.
      apply (Permutation_NoDup (Permutation_sym P)) in ND. rewrite El in ND. cbn [app] in ND.
      inversion ND as [|? ? Nin _]; subst. apply Nin, in_or_app. right. left. reflexivity. }
    rewrite El. rewrite (run_any_order nat raw [] h b k Hc Hi (fun e (I : In e []) => match I with end)).
    unfold raw. destruct (e_str h); reflexivity.
  - apply run_header. apply H_now.
    + intros os1 o os2 Eo T. assert (Io : In o (map OAdd l)) by (rewrite Eo; apply in_or_app; right; left; reflexivity).
      apply in_map_iff in Io as (e & <- & Ie). cbn [touches] in T.
      apply (Permutation_in e P) in Ie. pose proof (One e Ie T) as C. apply filed_in in Ie; [|exact F].
      unfold e_key in Ie. rewrite C, T, E in Ie. discriminate.
    + right. split; [|reflexivity]. intros o e I (-> & J). apply in_map_iff in I as (x & [= <-] & Ie).
      apply (Permutation_in x P) in Ie. apply filed_in in Ie; [|exact F]. unfold e_key, key in Ie.
      unfold joined in J. rewrite J in Ie. change ([] ++ EOT :: []) with (key [] []) in Ie. rewrite E in Ie. discriminate.
Qed.
End Load.
