(** What is read back of any catalog saved as .po or .pot file. *)
From Coq Require Import Permutation.
From Verif Require Import GoStr GoMap GoMapFacts FileModel FileFacts PoModel PoSpec PoCatalogFacts PoAnySpec PoAnyFacts PoLoadFacts GoStrFacts.

(** ** C21: the round trip without a condition on the entries but that the
    lines of their comments are white or comment lines.  Every entry is read
    back under its key as [kept] says, but the forms of an entry that has a
    translation of its own too are read back as a header. *)
Theorem C21_any_partial : forall isp f out, filed f ->
  (forall e c, In e (vals (f_entries f)) -> In c (e_cmts e) -> harmless c) ->
  f_entries f <> [] -> saves_po isp f out ->
  exists f', read_po out = PoOk f' /\ filed f'
    /\ (forall k e', k <> key [] [] ->
          (mget k (f_entries f') = Some e' <-> exists e, mget k (f_entries f) = Some e /\ translated e /\ e' = kept e))
    /\ match mget (key [] []) (f_entries f') with
       | Some e' => header_after f e'
       | None => (forall x, In x (vals (f_entries f)) -> ~ both x)
                 /\ forall h, mget (key [] []) (f_entries f) = Some h -> ~ translated h
       end.
Proof. exact po_any. Qed.
Print Assumptions C21_any_partial.
(** every entry a reader returns can be expressed *)
Lemma read_po_ok pot content f : read_po_ pot content = PoOk f -> forall k e, mget k (f_entries f) = Some e -> po_ok e.
Proof.
  intros R k e E. destruct (read_adds pot content f R) as (es & -> & H). apply H, vals_adds.
  apply mget_in in E. unfold vals. apply in_map_iff. exists (k, e). auto.
Qed.
Lemma comment_ok_harmless c : comment_ok c -> harmless c.
Proof.
  intros (St & N & R) l Hl. unfold file_lines in Hl.
  change (filter (fun x => negb (Ascii.eqb x CR)) c) with (remove_byte CR c) in Hl. rewrite remove_byte_no in Hl by exact R.
  rewrite split_byte_no in Hl by exact N. destruct Hl as [<-|[]]. right. exact St.
Qed.
(** so the round trip keeps the translated entries exactly when a .po file can
    express each of them.  Partial: the entries without a translation, of which
    the file has the comments and ids, must not have other lines in their comments. *)
Theorem C21_exactly_partial : forall isp f out, filed f ->
  (forall e c, In e (vals (f_entries f)) -> ~ translated e -> In c (e_cmts e) -> harmless c) ->
  f_entries f <> [] -> saves_po isp f out ->
  ((exists f', read_po out = PoOk f' /\
      forall k e, mget k (f_entries f') = Some e <-> mget k (f_entries f) = Some e /\ translated e)
   <-> forall e, In e (vals (f_entries f)) -> translated e -> po_ok e).
Proof.
  intros isp f out F G Ne W. split.
  - intros (f' & R & Q) e He Te. apply filed_in in He; [|exact F]. exact (read_po_ok false out f' R _ _ (proj2 (Q _ _) (conj He Te))).
  - intros Ok. apply (po_round_trip_iff isp f out F); [|assumption..]. intros e c He Hc.
    assert (D : translated e \/ ~ translated e) by (rewrite <- translated_valid; destruct (is_valid e); [left; reflexivity|right; discriminate]).
    destruct D as [T|T]; [apply comment_ok_harmless, (proj1 (Ok e He T)), Hc|exact (G e c He T Hc)].
Qed.
Print Assumptions C21_exactly_partial.
Definition mk c k i p i2 s n : entry :=
  {| e_cmts := c; e_ctxt := k; e_id := i; e_plural := p; e_id2 := i2; e_str := s; e_strn := n |}.
(** the condition on entries without a translation cannot be left out: the comment
    of one may bring a message into the file that the catalog does not have *)
Definition smuggler : entry := mk [B "msgid ""x""" ++ NL :: B "msgstr ""y"""] [] (B "a") false [] [] [].
Theorem C21_untranslated_refuted : exists f, filed f /\ f_entries f <> []
  /\ (forall e, In e (vals (f_entries f)) -> translated e -> po_ok e)
  /\ forall isp out, saves_po isp f out -> exists f', read_po out = PoOk f' /\ f_entries f' = [(key [] (B "x"), mk [] [] (B "x") false [] (B "y") [])].
Proof.
  exists (add_entry new_file smuggler). split; [apply built_filed; exists [smuggler]; reflexivity|]. split; [discriminate|]. split.
  - intros e [<-|[]] [T|T]; destruct T; reflexivity.
  - intros isp out (l & [P _] & ->). change (vals (f_entries (add_entry new_file smuggler))) with [smuggler] in P.
    apply Permutation_sym, Permutation_length_1_inv in P as ->. eexists. split; vm_compute; reflexivity.
Qed.
Print Assumptions C21_untranslated_refuted.
(** an entry with a translation and forms takes the header from the file: the
    catalog read back still knows its language, but one more save loses it *)
Definition bad_h : entry := mk [] [] [] false [] (B "Language: de") [].
Definition bad_e : entry := mk [B "# a" ++ NL :: B "# b"] [] (B "day") true (B "days") (B "Tag") [B "Tag"; B "Tage"].
Definition bad_f : file := add_entry (add_entry new_file bad_h) bad_e.
Example bad_f_harmless : forall e c, In e (vals (f_entries bad_f)) -> In c (e_cmts e) -> harmless c.
Proof.
  intros e c [<-|[<-|[]]]; [intros []|]. intros [<-|[]] l Hl. right.
  vm_compute in Hl. destruct Hl as [<-|[<-|[]]]; [exists (B " a")|exists (B " b")]; reflexivity.
Qed.
Theorem C21_header_refuted : exists f, filed f /\ f_entries f <> []
  /\ (forall e c, In e (vals (f_entries f)) -> In c (e_cmts e) -> harmless c) /\ fst (lang f) = B "de"
  /\ forall isp out, saves_po isp f out -> exists f', read_po out = PoOk f'
    /\ mget (key [] []) (f_entries f') = Some (mk [] [] [] false [] [] [B "Tag"; B "Tage"])
    /\ forall out', saves_po isp f' out' -> exists f'', read_po out' = PoOk f'' /\ fst (lang f'') = [].
Proof.
  exists bad_f. split; [apply built_filed; exists [bad_h; bad_e]; reflexivity|]. split; [discriminate|].
  split; [apply bad_f_harmless|]. split; [vm_compute; reflexivity|].
  assert (Two : forall isp f a b out, vals (f_entries f) = [a; b] -> bltb (sort_key a) (sort_key b) = true ->
    (forall e c, In e [a; b] -> In c (e_cmts e) -> harmless c) -> saves_po isp f out ->
    read_po out = PoOk (fold_left (PoReadFacts.addif false) (concat (map parts [a; b])) new_file)).
  { intros isp f a b out V O G (l & [P St] & ->). rewrite V in P.
    assert (L : l = [a; b]).
    { apply Permutation_sym in P. apply Permutation_length_2_inv in P as [-> | ->]; [reflexivity|].
      exfalso. destruct St as [St _]. specialize (St a (or_introl eq_refl)). rewrite O in St. discriminate. }
    subst l. apply read_po_parts; [discriminate|exact G]. }
  intros isp out Sv. eexists. split; [apply (Two isp bad_f bad_h bad_e out); [reflexivity|reflexivity|apply bad_f_harmless|exact Sv]|].
  split; [vm_compute; reflexivity|]. intros out' Sv'. eexists. split.
  - refine (Two isp _ (leftover bad_e) (kept bad_e) out' _ _ _ Sv'); [vm_compute; reflexivity|vm_compute; reflexivity|].
    intros e c [<-|[<-|[]]]; [intros []|]. intros [<-|[<-|[]]] l Hl; right; vm_compute in Hl; destruct Hl as [<-|[]];
      [exists (B " a")|exists (B " b")]; reflexivity.
  - vm_compute. reflexivity.
Qed.
Print Assumptions C21_header_refuted.
Example C21_any_case : kept bad_e = mk [B "# a"; B "# b"] [] (B "day") true (B "days") (B "Tag") []
  /\ leftover bad_e = mk [] [] [] false [] [] [B "Tag"; B "Tage"] /\ kept bad_h = bad_h
  /\ both bad_e /\ translated bad_e /\ ~ po_ok bad_e /\ po_ok bad_h.
Proof.
  split; [vm_compute; reflexivity|]. split; [reflexivity|]. split; [vm_compute; reflexivity|].
  split; [split; discriminate|]. split; [left; discriminate|]. split.
  - intros (_ & _ & [H|H]); discriminate.
  - split; [intros c []|]. split; right; reflexivity.
Qed.

(** ** C22: the same for templates; there every entry is read back under its key. *)
Theorem C22_any_partial : forall isp f out, filed f ->
  (forall e c, In e (vals (f_entries f)) -> In c (e_cmts e) -> harmless c) ->
  f_entries f <> [] -> saves_pot isp f out ->
  exists f', read_pot out = PoOk f' /\ filed f' /\
    forall k e', mget k (f_entries f') = Some e' <-> exists e, mget k (f_entries f) = Some e /\ e' = kept_template e.
Proof. exact pot_any. Qed.
Print Assumptions C22_any_partial.
(** so a template keeps all it should exactly when each entry has its comments on
    lines of their own, and a second id only if it is plural; whatever the comments are *)
Theorem C22_exactly : forall isp f out, filed f -> f_entries f <> [] -> saves_pot isp f out ->
  ((exists f', read_pot out = PoOk f' /\
      forall k e', mget k (f_entries f') = Some e' <-> exists e, mget k (f_entries f) = Some e /\ e' = template_of e)
   <-> forall e, In e (vals (f_entries f)) -> pot_ok e).
Proof.
  intros isp f out F Ne W. split.
  - intros (f' & R & Q) e He. apply filed_in in He; [|exact F].
    assert (M : mget (e_key e) (f_entries f') = Some (template_of e)) by (apply Q; eauto).
    destruct (read_po_ok true out f' R _ _ M) as (H1 & H2 & _). split; [exact H1|exact H2].
  - intros Ok. destruct (pot_round_trip isp f out F Ok Ne W) as (f' & R & _ & Q). eauto.
Qed.
Print Assumptions C22_exactly.
Example C22_any_case : filed bad_f /\ f_entries bad_f <> []
  /\ (forall e c, In e (vals (f_entries bad_f)) -> In c (e_cmts e) -> harmless c)
  /\ kept_template bad_e = mk [B "# a"; B "# b"] [] (B "day") true (B "days") [] [[]; []]
  /\ kept_template (mk [] [] (B "a") false (B "b") (B "c") []) = mk [] [] (B "a") false [] [] [].
Proof.
  split; [apply built_filed; exists [bad_h; bad_e]; reflexivity|]. split; [discriminate|].
  split; [apply bad_f_harmless|]. split; vm_compute; reflexivity.
Qed.
