(** C102: converting catalogs between .po and .mo. *)
From Coq Require Import List ZArith Ascii Lia Permutation.
From Verif Require Import GoStr GoStrFacts GoMap GoMapFacts FileModel FileSpec FormsFacts FileFacts PoModel PoSpec PoReadFacts PoCatalogFacts MoModel MoSpec MoCatalogFacts
  CatModel CatSpec CatFacts CatRunFacts ConvSpec ConvFacts.
Import ListNotations.
Local Open Scope nat_scope.

(** [f] is a catalog of any program: read, filled, copied *)
Section Catalogs.
Context {A : Type}.
Variable fmt : bytes -> list A -> bytes.
Variable os : list (cop A).
Variable x : nat.
Hypothesis P : cproper os.
Hypothesis X : x < cats os.
Let f := cview (crun fmt os) x.
Hypothesis C : convertible f.
Variable l : list form.
Variable g : file.
Hypothesis H : converted l f g.

(** However often it was converted, the entries are those it had, without the untranslated ones
    if there was a .po file and without the comments if there was a .mo file. *)
Theorem C102_entries : forall k e', mget k (f_entries g) = Some e' <->
  exists e, mget k (f_entries f) = Some e /\ (In AsPo l -> translated e) /\ e' = left_of l e.
Proof. apply chain; auto. apply run_filed; assumption. Qed.
(** It can always be converted once more. *)
Theorem C102_goes_on :
  (forall isp, exists out, saves_po isp g out) /\ (forall isp out, saves_po isp g out -> exists h, read_po out = PoOk h)
  /\ (exists out, saves_mo g out) /\ (forall out, saves_mo g out -> (N.of_nat (length out) < 2 ^ 32)%N -> exists h, read_mo out = MoOk h).
Proof.
  destruct (chain l f g (run_filed fmt os x P X) C H) as (Fg & Cg & _). split; [|split; [|split]].
  - intros isp. apply saves_exist.
  - intros isp out W. apply (chain_goes_on g isp out Fg Cg W).
  - apply saves_mo_exist.
  - intros out W L. destruct (step_mo g out Fg Cg W L) as (h & R & _). eauto.
Qed.
(** The header fields are those of the header entry; so they stay the same exactly if the
    catalog answers from that entry. *)
Theorem C102_fields : l <> [] ->
  ((forall k, fst (get_header k g) = fst (get_header k f)) <-> forall k, fst (get_header k f) = header_value (heading f) k).
Proof.
  intros N. pose proof (chain_head l f g (run_filed fmt os x P X) C H N) as Q. split; intros E k; [rewrite <- E; apply Q|rewrite E; apply Q].
Qed.
(** Then it gives the same answers, but to plural questions about untranslated entries. *)
Theorem C102_answers : (forall k, fst (get_header k f) = header_value (heading f) k) ->
  fst (lang g) = fst (lang f) /\ (forall k, fst (get_header k g) = fst (get_header k f))
  /\ (forall c i args, f_x fmt g c i args = f_x fmt f c i args)
  /\ forall c i i2 n args, ~ In AsPo l \/ (forall e, mget (joined c i) (f_entries f) = Some e -> translated e) ->
       fst (f_xn64 fmt g c i i2 n args) = fst (f_xn64 fmt f c i i2 n args).
Proof.
  intros Hf. pose proof (run_filed fmt os x P X) as F. pose proof (chain_fields l f g F C H Hf) as Q. destruct (inv_run fmt os P) as (_ & _ & _ & R).
  split; [|split; [exact Q|split]].
  - specialize (Q H_language). unfold lang. destruct (get_header H_language g), (get_header H_language f). cbn [fst] in *. congruence.
  - intros c i args. apply answers_x. destruct (chain_agree l f g F C H (key c i)) as [E|(E & _ & E')]; auto.
  - intros c i i2 n args T. apply xn_same; [eapply chain_rule; eauto|].
    destruct (chain_agree l f g F C H (key c i)) as [E|(_ & I & e & E & N)]; [exact E|]. exfalso. destruct T as [T|T]; [auto|]. exact (N (T e E)).
Qed.
(** Once there was a .mo file, every further file of a format is the same, byte by byte. *)
Theorem C102_bytes : forall l' g', converted l' f g' -> In AsMo l -> In AsMo l' ->
  (In AsPo l <-> In AsPo l') \/ (forall e, In e (vals (f_entries f)) -> translated e) ->
  (forall isp out out', saves_po isp g out -> saves_po isp g' out' -> out = out')
  /\ (forall isp out out', saves_pot isp g out -> saves_pot isp g' out' -> out = out')
  /\ (forall out out', saves_mo g out -> saves_mo g' out' -> out = out').
Proof.
  intros l' g' H' M M' D. pose proof (run_filed fmt os x P X) as F. pose proof (chains_meet l l' f g g' F C H H' M M' D) as E.
  destruct (chain l f g F C H) as (Fg & _). destruct (chain l' f g' F C H') as (Fg' & _). pose proof (chain_bare l f g F C H M) as B.
  split; [|split].
  - intros isp out out' (a & Sa & ->) (b & Sb & ->). rewrite (bare_sorted g g' a b); auto.
  - intros isp out out' (a & Sa & ->) (b & Sb & ->). rewrite (bare_sorted g g' a b); auto.
  - intros out out' (a & Sa & ->) (b & Sb & ->). rewrite (bare_sorted g g' a b); auto.
Qed.
End Catalogs.
Print Assumptions C102_entries.
Print Assumptions C102_goes_on.
Print Assumptions C102_fields.
Print Assumptions C102_answers.
Print Assumptions C102_bytes.

(** Example: a catalog with a header, a plural and an untranslated message, with references,
    and its ways through both formats *)
Local Definition conv_es : list entry :=
  [ {| e_cmts := []; e_ctxt := []; e_id := []; e_plural := false; e_id2 := []; e_str := B "Language: de"; e_strn := [] |};
    {| e_cmts := [B "#: b.go:7"]; e_ctxt := B "c"; e_id := B "day"; e_plural := true; e_id2 := B "days"; e_str := []; e_strn := [B "Tag"; B "Tage"] |};
    {| e_cmts := [B "#: a.go:3"]; e_ctxt := []; e_id := B "open"; e_plural := false; e_id2 := []; e_str := []; e_strn := [] |} ].
Local Definition hd_entry (l : list entry) : entry := hd {| e_cmts := []; e_ctxt := []; e_id := []; e_plural := false; e_id2 := []; e_str := []; e_strn := [] |} l.
Local Definition conv_os : list (cop unit) := rev (CNew :: map (fun e => CAdd (Some 0) (Some e)) conv_es).
Local Definition conv_file : file := cview (crun (fun s _ => s) conv_os) 0.
Example C102_case : cproper conv_os /\ 0 < cats conv_os /\ convertible conv_file
  /\ (forall k, fst (get_header k conv_file) = header_value (heading conv_file) k).
Proof.
  split; [cbn; lia|]. split; [cbn; lia|]. split.
  - split.
    + intros e I. repeat destruct I as [<- |I]; [..|destruct I]; (split; [|split; [|cbn; intros Q; try discriminate Q; reflexivity]]);
        try (split; [intros c Ic; cbn in Ic; repeat destruct Ic as [<- |Ic]; [..|destruct Ic]; (split; [eexists; reflexivity|split; vm_compute; intuition discriminate])
                    |split; cbn; auto]; fail);
        try (split; [intros c []|split; cbn; auto]; fail);
        vm_compute; intuition (try discriminate); subst; try (vm_compute in *; intuition discriminate).
    + exists {| e_cmts := []; e_ctxt := []; e_id := []; e_plural := false; e_id2 := []; e_str := B "Language: de"; e_strn := [] |}. split; [vm_compute; auto|]. left. discriminate.
  - intros k. rewrite <- parse_headers_get. reflexivity.
Qed.
Ltac sorted := cbn [sorted_by_key]; repeat split; intros y Hy; repeat (destruct Hy as [<- |Hy]; [vm_compute; reflexivity|]); destruct Hy.
Example C102_ways : exists g, converted [AsPo; AsMo] conv_file g
  /\ option_map e_cmts (mget (joined (B "c") (B "day")) (f_entries g)) = Some [] /\ mget (joined [] (B "open")) (f_entries g) = None.
Proof.
  eexists. split; [|split].
  - eapply cv_po with (isp := fun _ => true).
    + exists [nth 0 conv_es (hd_entry conv_es); nth 2 conv_es (hd_entry conv_es); nth 1 conv_es (hd_entry conv_es)]. split; [split|reflexivity].
      * vm_compute. apply perm_skip, perm_swap.
      * sorted.
    + vm_compute. reflexivity.
    + eapply cv_mo.
      * eexists [_; _]. split; [split|reflexivity]; [apply Permutation_refl|sorted].
      * vm_compute. reflexivity.
      * vm_compute. reflexivity.
      * apply cv_none.
  - vm_compute. reflexivity.
  - vm_compute. reflexivity.
Qed.
