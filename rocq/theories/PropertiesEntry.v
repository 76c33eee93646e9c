(** Properties of catalogs whose entries a program shares by pointers. *)
From Coq Require Import List ZArith Ascii Lia Permutation.
From Verif Require Import GoStr GoStrFacts GoMap GoMapFacts FileModel PoModel PoSpec MoModel FileSpec EntryModel EntrySpec EntryFacts EntryRunFacts.
Import ListNotations.

Section Entries.
Context {A : Type}.
Variable fmt : bytes -> list A -> bytes.
Notation after os := (pruns fmt os no_store).
Implicit Types (os : list (pop A)).
(** what a catalog of a program answers now *)
Notation asked os f := (the_pfile (after os) f).
Notation heap_of os := (st_heap (after os)).

(** C95: an entry that a program made has exactly one contents, a catalog lists at most one entry
    under a name, and only entries that were made. *)
Theorem C95_one os : proper os ->
  (forall a, a < length (made os) -> exists e, contents os a e)
  /\ (forall a e e', contents os a e -> contents os a e' -> e = e')
  /\ (forall f k a b, lists os f k a -> lists os f k b -> a = b)
  /\ (forall f k a, lists os f k a -> a < length (made os) /\ f < files os).
Proof.
  intros P. pose proof (store_inv fmt os P) as I. repeat split.
  - intros a L. rewrite <- (i_heap _ _ I) in L. apply nth_error_Some in L. destruct (nth_error (heap_of os) a) as [e|] eqn:E; [|congruence].
    exists e. apply (i_contents _ _ I), E.
  - intros a e e' H H'. apply (i_contents _ _ I) in H, H'. congruence.
  - intros f k a b H H'. apply (i_lists _ _ I) in H, H'. congruence.
  - eapply lists_lt; eassumption.
  - eapply lists_lt; eassumption.
Qed.
(** [X] answers with what the entry listed under the name contains when it is asked, whatever
    happened to that entry since it was added. *)
Theorem C95_lookup os f c i args : proper os ->
  (forall a e, lists os f (joined c i) a -> contents os a e ->
     p_x fmt (heap_of os) (asked os f) c i args = if is_empty (e_str e) then fmt i args else fmt (e_str e) args)
  /\ ((forall a, ~ lists os f (joined c i) a) -> p_x fmt (heap_of os) (asked os f) c i args = fmt i args).
Proof.
  intros P. pose proof (store_inv fmt os P) as I. unfold p_x. change (key c i) with (joined c i). split.
  - intros a e L C. apply (i_lists _ _ I) in L. rewrite L. apply (i_contents _ _ I) in C. unfold deref. rewrite (nth_error_nth _ _ _ C). reflexivity.
  - intros N. destruct (mget _ _) as [a|] eqn:E; [|reflexivity]. apply (i_lists _ _ I) in E. destruct (N a E).
Qed.
(** Changing an entry changes what [X] answers for the names under which it is listed, in every
    catalog that lists it, and nothing else. *)
Theorem C95_change os a e f c i args : proper (os ++ [PSet a e]) ->
  (lists os f (joined c i) a ->
     p_x fmt (heap_of (os ++ [PSet a e])) (asked (os ++ [PSet a e]) f) c i args = if is_empty (e_str e) then fmt i args else fmt (e_str e) args)
  /\ (~ lists os f (joined c i) a ->
     p_x fmt (heap_of (os ++ [PSet a e])) (asked (os ++ [PSet a e]) f) c i args = p_x fmt (heap_of os) (asked os f) c i args).
Proof.
  intros P. pose proof P as P0. apply proper_snoc in P0 as [P1 U]. pose proof (store_inv fmt os P1) as I. cbn [uses] in U. rewrite <- (i_heap _ _ I) in U.
  rewrite pruns_snoc. cbn [pstep]. change (the_pfile _ f) with (asked os f). cbn [st_heap]. unfold p_x. change (key c i) with (joined c i). split.
  - intros L. apply (i_lists _ _ I) in L. rewrite L. unfold deref. rewrite nth_put_at, Nat.eqb_refl. replace (a <? length (heap_of os)) with true by (symmetry; apply Nat.ltb_lt, U). reflexivity.
  - intros N. destruct (mget _ _) as [b|] eqn:E; [|reflexivity]. unfold deref. rewrite nth_put_at. destruct (Nat.eqb_spec b a) as [->|_]; [|reflexivity].
    apply (i_lists _ _ I) in E. destruct (N E).
Qed.
(** The header fields a catalog answered with once it keeps, whatever is done to its entries. *)
Theorem C95_header os k os2 f k' : proper os -> f < files os ->
  fst (p_get_header (heap_of (os ++ PHeader f k :: os2)) k' (asked (os ++ PHeader f k :: os2) f))
  = fst (p_get_header (heap_of os) k' (asked os f)).
Proof.
  intros P L. rewrite <- (i_files _ _ (store_inv fmt os P)) in L.
  unfold pruns. rewrite fold_left_app. cbn [fold_left]. fold (pruns fmt os no_store). fold (pruns fmt os2).
  set (s := pruns fmt os no_store) in *. cbn [pstep].
  destruct (q_headers (p_init_header (st_heap s) (the_pfile s f))) as [h|] eqn:E.
  2:{ exfalso. revert E. unfold p_init_header. destruct (q_headers (the_pfile s f)) as [h|] eqn:E; [congruence|discriminate]. }
  set (s1 := set_pfile s f _).
  assert (H : q_headers (the_pfile s1 f) = Some h) by (unfold s1; rewrite the_set, Nat.eqb_refl by exact L; exact E).
  pose proof (heads_runs fmt os2 s1 f h H) as R. unfold pruns in R.
  unfold p_get_header. cbn [fst]. rewrite E, (heads_init _ _ _ R). reflexivity.
Qed.
(** Catalogs share entries only where the program added them: the entries of a catalog that was
    read are its own. *)
Theorem C95_shared os f f' k k' a : proper os -> lists os f k a -> lists os f' k' a -> f <> f' -> In (PAdd f a) os \/ In (PAdd f' a) os.
Proof.
  intros P L L' N. revert P f f' k k' a N L L'. induction os as [|o os IH] using rev_ind; intros P f f' k k' a N L L'.
  - destruct (lists_lt fmt _ _ _ _ P L) as [H _]. cbn in H. lia.
  - pose proof P as P0. apply proper_snoc in P0 as [P1 U]. apply lists_snoc in L, L'.
    destruct L as [[-> _]|[(g & i & e & C & -> & Hn & ->)|[L _]]].
    + left. apply in_or_app. right. left. reflexivity.
    + destruct L' as [[-> _]|[(g' & i' & e' & _ & -> & _ & _)|[L' _]]].
      * right. apply in_or_app. right. left. reflexivity.
      * congruence.
      * destruct (lists_lt fmt _ _ _ _ P1 L') as [H _]. lia.
    + destruct L' as [[-> _]|[(g' & i' & e' & _ & -> & _ & ->)|[L' _]]].
      * right. apply in_or_app. right. left. reflexivity.
      * destruct (lists_lt fmt _ _ _ _ P1 L) as [H _]. lia.
      * destruct (IH P1 f f' k k' a N L L'); [left|right]; apply in_or_app; left; assumption.
Qed.
(** All that a catalog answers and saves is what the catalog of the current contents of its
    entries answers and saves. *)
Theorem C95_now os f : proper os -> exists g,
  (forall k e, mget k (f_entries g) = Some e <-> exists a, lists os f k a /\ contents os a e)
  /\ (forall c i args, p_x fmt (heap_of os) (asked os f) c i args = f_x fmt g c i args)
  /\ (forall c i i2 n args, fst (p_xn64 fmt (heap_of os) (asked os f) c i i2 n args) = fst (f_xn64 fmt g c i i2 n args))
  /\ (forall k, fst (p_get_header (heap_of os) k (asked os f)) = fst (get_header k g))
  /\ fst (p_lang (heap_of os) (asked os f)) = fst (lang g)
  /\ (forall isp out, p_saves_po (heap_of os) isp (asked os f) out <-> saves_po isp g out)
  /\ (forall isp out, p_saves_pot (heap_of os) isp (asked os f) out <-> saves_pot isp g out)
  /\ (forall out, p_saves_mo (heap_of os) (asked os f) out <-> saves_mo g out).
Proof.
  intros P. pose proof (store_inv fmt os P) as I. exists (view (heap_of os) (asked os f)). split.
  - intros k e. cbn [view f_entries]. rewrite mget_view. split.
    + destruct (mget k _) as [a|] eqn:E; [|discriminate]. intros [= <-]. exists a. apply (i_lists _ _ I) in E. split; [exact E|].
      apply (i_contents _ _ I), nth_error_nth'. rewrite (i_heap _ _ I). apply (lists_lt fmt _ _ _ _ P E).
    + intros (a & L & C). apply (i_lists _ _ I) in L. apply (i_contents _ _ I) in C. rewrite L. cbn [option_map]. unfold deref. rewrite (nth_error_nth _ _ _ C). reflexivity.
  - repeat split; intros.
    + apply view_x.
    + apply view_xn.
    + apply view_get_header.
    + apply view_lang.
    + apply view_saves; assumption.
    + apply view_saves; assumption.
    + apply view_saves; assumption.
    + apply view_saves; assumption.
    + apply (view_saves _ _ (fun _ => true)); assumption.
    + apply (view_saves _ _ (fun _ => true)); assumption.
Qed.
(** A program that leaves entries alone once a catalog lists them has the catalogs of values of
    which the other properties speak: those that the same calls make of the contents the entries
    had when they were added. *)
Theorem C95_values os f : proper os -> settled os -> f < files os ->
  exists g l, acts f os g l
  /\ (let v := fold_left (step fmt) l g in
      (forall c i args, p_x fmt (heap_of os) (asked os f) c i args = f_x fmt v c i args)
      /\ (forall c i i2 n args, fst (p_xn64 fmt (heap_of os) (asked os f) c i i2 n args) = fst (f_xn64 fmt v c i i2 n args))
      /\ (forall k, fst (p_get_header (heap_of os) k (asked os f)) = fst (get_header k v))
      /\ fst (p_lang (heap_of os) (asked os f)) = fst (lang v)
      /\ (forall isp out, p_saves_po (heap_of os) isp (asked os f) out <-> saves_po isp v out)
      /\ (forall isp out, p_saves_pot (heap_of os) isp (asked os f) out <-> saves_pot isp v out)
      /\ (forall out, p_saves_mo (heap_of os) (asked os f) out <-> saves_mo v out)).
Proof.
  intros P St L. destruct (values fmt os P St f L) as (g & l & Ha & Hv). exists g, l. split; [exact Ha|]. cbv zeta. rewrite <- Hv.
  repeat split; intros.
  - apply view_x.
  - apply view_xn.
  - apply view_get_header.
  - apply view_lang.
  - apply view_saves; assumption.
  - apply view_saves; assumption.
  - apply view_saves; assumption.
  - apply view_saves; assumption.
  - apply (view_saves _ _ (fun _ => true)); assumption.
  - apply (view_saves _ _ (fun _ => true)); assumption.
Qed.
End Entries.
Print Assumptions C95_one.
Print Assumptions C95_lookup.
Print Assumptions C95_change.
Print Assumptions C95_header.
Print Assumptions C95_shared.
Print Assumptions C95_now.
Print Assumptions C95_values.

(** ** A program *)
Definition an_entry (i s : string) : entry :=
  {| e_cmts := []; e_ctxt := []; e_id := B i; e_plural := false; e_id2 := []; e_str := B s; e_strn := [] |}.
Definition as_is (s : bytes) (_ : list unit) : bytes := s.
(** one entry in two catalogs *)
Definition a_program : list (pop unit) := [PNew (an_entry "a" "A"); PFile; PFile; PAdd 0 0; PAdd 1 0].
Lemma proper_by os : (forall n, n < length os -> match nth_error os n with Some o => uses (firstn n os) o | None => True end) -> proper (A := unit) os.
Proof.
  intros H u o v ->. specialize (H (length u)). rewrite app_length in H. cbn [length] in H. specialize (H ltac:(lia)).
  rewrite nth_error_app2, Nat.sub_diag in H by lia. cbn [nth_error] in H. rewrite firstn_app, Nat.sub_diag, firstn_all, app_nil_r in H. exact H.
Qed.
Lemma a_program_proper e : proper (a_program ++ [PSet 0 e]).
Proof. apply proper_by. intros n L. cbn in L. do 6 (destruct n as [|n]; [cbn; repeat split; lia|]). lia. Qed.
Lemma a_program_ok : proper a_program.
Proof. exact (proj1 (proj1 (proper_snoc _ _) (a_program_proper zero_entry))). Qed.
Example C95_example :
  proper a_program /\ settled a_program /\ files a_program = 2 /\ made a_program = [an_entry "a" "A"]
  /\ lists a_program 0 (joined [] (B "a")) 0 /\ lists a_program 1 (joined [] (B "a")) 0 /\ contents a_program 0 (an_entry "a" "A").
Proof.
  pose proof a_program_ok as P. pose proof (store_inv as_is _ P) as I. split; [exact P|]. split.
  - intros u a e v E. exfalso. unfold a_program in E. do 5 (destruct u as [|? u]; [discriminate E|injection E as _ E]). destruct u; discriminate E.
  - repeat split; [apply (i_lists _ _ I)|apply (i_lists _ _ I)|apply (i_contents _ _ I)]; reflexivity.
Qed.
(** AddEntry does not copy: after the entry is changed, both catalogs answer with the new text
    under the old name, do not know the new one, and save the new one. *)
Theorem C95_copy_refuted :
  exists (os : list (pop unit)) (a : nat) (e : entry) (c i : bytes),
    proper (os ++ [PSet a e])
    /\ (let s := pruns as_is os no_store in let s' := pruns as_is (os ++ [PSet a e]) no_store in
        p_x as_is (st_heap s) (the_pfile s 0) c i [] = B "A" /\ p_x as_is (st_heap s) (the_pfile s 1) c i [] = B "A"
        /\ p_x as_is (st_heap s') (the_pfile s' 0) c i [] = B "B" /\ p_x as_is (st_heap s') (the_pfile s' 1) c i [] = B "B"
        /\ p_x as_is (st_heap s') (the_pfile s' 0) c (e_id e) [] = e_id e /\ e_id e <> i
        /\ forall isp out, p_saves_po (st_heap s') isp (the_pfile s' 0) out -> out = po_entry isp e).
Proof.
  exists a_program, 0, (an_entry "b" "B"), [], (B "a"). split; [apply a_program_proper|]. cbv zeta. repeat split; try reflexivity; [discriminate|].
  intros isp out (l & [Pm _] & ->). change (vals _) with [0] in Pm. apply Permutation_sym, Permutation_length_1_inv in Pm as ->.
  cbn [map concat]. rewrite app_nil_r. reflexivity.
Qed.
Print Assumptions C95_copy_refuted.
