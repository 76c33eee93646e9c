(** C52 (header fields) and C73: reproducible extraction. *)
From Coq Require Import Lia Permutation Sorted.
From Verif Require Import GoStr GoStrFacts GoMap FileModel FileSpec PoModel PoSpec PoCatalogFacts XtModel XtSpec XtKeyFacts XtFacts XtMergeFacts XtRunFacts
  XtRepSpec XtRepFacts XtOrderFacts PropertiesXt.
Local Open Scope Z_scope.

(** C52: the header of the generated file has the usual comments and exactly the documented fields: the
    parameters of the run, the time, and Plural-Forms if some message is plural.
    Partial: no message without context and id (see C52_header_refuted), no line
    breaks in parameters and file names. *)
Theorem C52_fields_partial : forall isp globs creatable parses letter number now p w w' out,
  runs isp globs creatable parses letter number now p w ROk w' out -> ~ In NL now -> one_line p ->
  (forall kws files, spells (p_keyword p) kws -> globs (opened p w) (p_input p) = Some files -> clean_names files
     /\ forall o e, found parses p (map k_name kws ++ function_names (p_function p)) (opened p w) kws files o e -> ~ (e_ctxt e = [] /\ e_id e = [])) ->
  exists text f m, produced p w' out text /\ read_pot text = PoOk f /\ mget (key [] []) (f_entries f) = Some m
    /\ e_cmts m = header_comments
    /\ forall k v, header_value (e_str m) k = Some v <->
         In (k, v) (header_fields now p)
         \/ (exists k' m', mget k' (f_entries f) = Some m' /\ e_plural m' = true) /\ (k, v) = plural_field.
Proof.
  intros isp globs creatable parses letter number now p w w' out R Hn Hp H.
  destruct (runs_text _ _ _ _ _ _ _ _ _ _ _ R) as (kws & files & text & K & G & _ & Pr & l & _ & L & X).
  destruct (H kws files K G) as (C & E). destruct (X C) as (f & hp & Rf & Hh & Ef). clear X H.
  assert (NH : forall x, In x (map snd l) -> e_key x <> key [] []).
  { intros x Hx. apply in_map_iff in Hx as ([o y] & Y & I). cbn [snd] in Y. subst y. apply L in I. unfold e_key. rewrite key_nil. apply (E o x I). }
  exists text, f, (template_of (header_entry now p hp)). split; [exact Pr|]. split; [exact Rf|]. split; [apply Ef; right; auto|].
  split; [vm_compute; reflexivity|]. intros k v. change (e_str (template_of (header_entry now p hp))) with (e_str (header_entry now p hp)).
  rewrite header_fields_iff by assumption. rewrite Hh. split; (intros [I|[I J]]; [left; exact I|right; split; [|exact J]]).
  - destruct I as (k' & m & M & P). exists k', (template_of m). split; [apply Ef; left; exists m; auto|exact P].
  - destruct I as (k' & m & M & P). apply Ef in M as [(m0 & M & ->)|(_ & _ & ->)]; [|discriminate P]. exists k', m0. auto.
Qed.
Print Assumptions C52_fields_partial.

(** C73.  Full statement: two runs with the same parameters, files and time end
    in the same way, with the same file system and the same output.  The order in
    which the templates of a file are visited and the order of the catalog's
    entries are not fixed.  Partial: every message of a file is in one of its
    templates only; file names without blanks and colons; lines below 10^9;
    messages with an id. *)
Theorem C73_reproducible_partial : forall isp globs creatable P1 P2 letter number now p w o1 w1 out1 o2 w2 out2,
  same_templates P1 P2 ->
  (forall kws files n src ts, spells (p_keyword p) kws -> globs (opened p w) (p_input p) = Some files -> In n files ->
     opened p w n = Some src ->
     P1 ((map k_name kws ++ function_names (p_function p)) ++ scan_func_names src) (p_left p) (p_right p) src = Some ts -> tidy n kws ts) ->
  runs isp globs creatable P1 letter number now p w o1 w1 out1 -> runs isp globs creatable P2 letter number now p w o2 w2 out2 ->
  o1 = o2 /\ w1 = w2 /\ out1 = out2.
Proof. intros isp globs creatable P1 P2 letter number now p w o1 w1 out1 o2 w2 out2 S. apply runs_same, S. Qed.
Print Assumptions C73_reproducible_partial.

(** Sample: one file with given templates. *)
Definition b_parses (ts : list tnode) : list bytes -> bytes -> bytes -> bytes -> option (list tnode) := fun _ _ _ _ => Some ts.
Definition b_ctx (kws : list keyword) (ts : list tnode) : ctx := fold_left (fun c t => resolve_node (B "a") t c) ts (new_ctx kws).
Definition b_param (kws : string) : param :=
  {| p_input := B "a"; p_left := B "{{"; p_right := B "}}"; p_keyword := B kws; p_function := []; p_output := [] |}.
Definition b_file (kws : list keyword) (s : string) (ts : list tnode) : file :=
  fold_left add_entry (vals (c_entries (b_ctx kws ts))) (add_entry new_file (header_entry [] (b_param s) (c_has_plural (b_ctx kws ts)))).
Lemma b_runs s kws ts l : parse_keywords (B s) = Some kws -> forallb (good_name no_chars no_chars) (map k_name kws ++ scan_func_names (B "{{T}}")) = true ->
  Permutation l (vals (f_entries (b_file kws s ts))) -> sorted_by_key l ->
  runs no_chars a_globs all_ok (b_parses ts) no_chars no_chars [] (b_param s) (a_fs "{{T}}") ROk (a_fs "{{T}}") (concat (map (pot_entry no_chars) l)).
Proof.
  intros K G P O. pose (p := b_param s).
  apply (R_done no_chars a_globs all_ok (b_parses ts) no_chars no_chars [] p (a_fs "{{T}}") kws
    (a_fs "{{T}}") [B "a"] (b_ctx kws ts) (b_file kws s ts) (concat (map (pot_entry no_chars) l))).
  - exact K.
  - right. auto.
  - reflexivity.
  - cbn [resolve_files]. unfold resolve_file. change (a_fs "{{T}}" (B "a")) with (Some (B "{{T}}")). cbv iota.
    cbn [p p_function b_param function_names]. rewrite app_nil_r, G. reflexivity.
  - eexists. split; [apply Permutation_refl|reflexivity].
  - exists l. split; [split; assumption|reflexivity].
Qed.
Definition call (line : Z) (id : string) : tnode := TAction line [[AIdent (B "T"); AStr (B id)]].
(** the same message in two templates of a file: the references come in the
    order in which the templates happen to be visited *)
Theorem C73_order_refuted : exists isp globs creatable P1 P2 letter number now p w w1 out1 w2 out2,
  same_templates P1 P2 /\ runs isp globs creatable P1 letter number now p w ROk w1 out1
  /\ runs isp globs creatable P2 letter number now p w ROk w2 out2 /\ out1 <> out2.
Proof.
  pose (ts1 := [call 1 "x"; call 2 "x"]). pose (ts2 := [call 2 "x"; call 1 "x"]). pose (ks := [kw (B "T") 0 1 0]).
  exists no_chars, a_globs, all_ok, (b_parses ts1), (b_parses ts2), no_chars, no_chars, [], (b_param "T"), (a_fs "{{T}}").
  exists (a_fs "{{T}}"), (concat (map (pot_entry no_chars) (vals (f_entries (b_file ks "T" ts1))))).
  exists (a_fs "{{T}}"), (concat (map (pot_entry no_chars) (vals (f_entries (b_file ks "T" ts2))))).
  split; [intros fs l r src; right; exists ts1, ts2; split; [reflexivity|]; split; [reflexivity|apply perm_swap]|].
  assert (Q : forall ts, In ts [ts1; ts2] -> runs no_chars a_globs all_ok (b_parses ts) no_chars no_chars [] (b_param "T") (a_fs "{{T}}") ROk (a_fs "{{T}}")
    (concat (map (pot_entry no_chars) (vals (f_entries (b_file ks "T" ts)))))).
  { intros ts I. apply (b_runs "T" ks); [vm_compute; reflexivity|vm_compute; reflexivity|apply Permutation_refl|].
    destruct I as [<-|[<-|[]]]; (split; [intros x [<-|[]]; vm_compute; reflexivity|]; split; [intros x []|exact I]). }
  split; [apply Q; left; reflexivity|]. split; [apply Q; right; left; reflexivity|]. vm_compute. discriminate.
Qed.
Print Assumptions C73_order_refuted.
(** a message with a context and an empty id is sorted like the header: either may come first *)
Theorem C73_header_refuted : exists isp globs creatable parses letter number now p w w' out1 out2,
  runs isp globs creatable parses letter number now p w ROk w' out1
  /\ runs isp globs creatable parses letter number now p w ROk w' out2 /\ out1 <> out2.
Proof.
  pose (ts := [TAction 1 [[AIdent (B "X"); AStr (B "c"); AStr []]]]). pose (ks := [kw (B "X") 1 2 0]).
  pose (l := vals (f_entries (b_file ks "X:1c,2" ts))).
  exists no_chars, a_globs, all_ok, (b_parses ts), no_chars, no_chars, [], (b_param "X:1c,2"), (a_fs "{{T}}"), (a_fs "{{T}}").
  exists (concat (map (pot_entry no_chars) l)), (concat (map (pot_entry no_chars) (rev l))).
  split; [|split].
  - apply (b_runs "X:1c,2" ks); [vm_compute; reflexivity|vm_compute; reflexivity|apply Permutation_refl|].
    split; [intros x [<-|[]]; vm_compute; reflexivity|]. split; [intros x []|exact I].
  - apply (b_runs "X:1c,2" ks); [vm_compute; reflexivity|vm_compute; reflexivity|symmetry; apply Permutation_rev|].
    split; [intros x [<-|[]]; vm_compute; reflexivity|]. split; [intros x []|exact I].
  - vm_compute. discriminate.
Qed.
Print Assumptions C73_header_refuted.
(** two templates with different messages *)
Lemma call_message line id o k e : message (B "a") [kw (B "T") 0 1 0] (call line id) o k e -> e_ctxt e = [] /\ e_id e = B id.
Proof.
  intros (o1 & o2 & i & l & p & args & n & _ & N & I & K & ((a & A1 & A2) & D)).
  inversion N; subst. assert (k = kw (B "T") 0 1 0) as -> by (destruct i as [|[|]]; [injection K as <-; reflexivity|discriminate K..]).
  inversion I as [p0 j args0 n0 Ar Ln|p0 j cmd i0 inner o0 args0 n0 Q1 Q2]; subst.
  2:{ destruct j as [|[|]]; cbn in Q1; [|congruence..]. injection Q1 as <-. destruct i0 as [|[|[|]]]; cbn in Q2; congruence. }
  assert (args = [AIdent (B "T"); AStr (B id)]) as ->.
  { inversion Ar as [j' cmd a0 s E1 E2 E3 E4|cmd E1 E2]; subst.
    - destruct j' as [|[|]]; discriminate E4.
    - destruct j as [|[|]]; [injection E2 as <-; reflexivity|discriminate E2..]. }
  split; [exact (d_ctxt _ _ _ _ _ D)|]. destruct (d_id _ _ _ _ _ D) as (_ & b & X & L). change (Z.to_nat (k_id (kw (B "T") 0 1 0))) with 1%nat in X.
  destruct n as [|[|n]].
  - cbn in X. injection X as <-. inversion L; subst. reflexivity.
  - cbn in A1. injection A1 as <-. inversion A2.
  - cbn [length] in Ln. lia.
Qed.
(** a run as [C52_fields_partial] asks for *)
Example C52_fields_case : let P := b_parses [call 1 "x"] in let p := b_param "T" in let w := a_fs "{{T}}" in
  (exists out, runs no_chars a_globs all_ok P no_chars no_chars [] p w ROk w out) /\ XtRepSpec.one_line p
  /\ forall kws files, spells (p_keyword p) kws -> a_globs (opened p w) (p_input p) = Some files -> clean_names files
     /\ forall o e, found P p (map k_name kws ++ function_names (p_function p)) (opened p w) kws files o e -> ~ (e_ctxt e = [] /\ e_id e = []).
Proof.
  cbv zeta. split; [|split].
  - eexists. apply (b_runs "T" [kw (B "T") 0 1 0] _ (vals (f_entries (b_file [kw (B "T") 0 1 0] "T" [call 1 "x"]))));
      [vm_compute; reflexivity|vm_compute; reflexivity|apply Permutation_refl|].
    split; [intros x [<-|[]]; vm_compute; reflexivity|]. split; [intros x []|exact I].
  - intros s H. cbn in H. repeat (destruct H as [<-|H]; [cbn; intuition discriminate|]). destruct H.
  - intros kws files K G. apply parse_keywords_iff in K. vm_compute in K. injection K as <-. injection G as <-. split.
    + intros n [<-|[]]. cbn. split; intuition discriminate.
    + intros o e (i & n & j & t & o' & k & _ & N & T & M & _) [_ E].
      destruct i as [|[|]]; [injection N as <-|discriminate N..]. destruct j as [|[|]]; [injection T as <-|discriminate T..].
      apply call_message in M as [_ M]. rewrite M in E. discriminate E.
Qed.
Example C73_example : let ts := [call 1 "x"; TList [call 2 "y"; call 3 "y"]] in
  tidy (B "a") [kw (B "T") 0 1 0] ts /\ same_templates (b_parses ts) (b_parses (rev ts))
  /\ exists out, runs no_chars a_globs all_ok (b_parses ts) no_chars no_chars [] (b_param "T") (a_fs "{{T}}") ROk (a_fs "{{T}}") out.
Proof.
  intros ts.
  assert (M : forall t o k e, In t ts -> message (B "a") [kw (B "T") 0 1 0] t o k e -> e_ctxt e = [] /\ e_id e = if (match t with TList _ => true | _ => false end) then B "y" else B "x").
  { intros t o k e [<-|[<-|[]]] Me; [exact (call_message _ _ _ _ _ Me)|].
    destruct Me as (o1 & o2 & i & l & p & args & n & -> & N & R). inversion N as [nodes j t o3 l0 p0 J N'| | | | | | | | | | | ]; subst.
    destruct j as [|[|j]]; [| |destruct j; discriminate J]; injection J as <-;
      (eapply call_message; exists o3, o2, i, l, p, args, n; split; [reflexivity|]; split; [exact N'|exact R]). }
  split; [|split].
  - split; [|split; [|split]].
    + split; [cbn; intuition discriminate|]. split; [cbn; intuition discriminate|].
      intros z N. apply parse_int_iff in N. vm_compute in N. discriminate.
    + intros i j t1 t2 o1 o2 k1 k2 e1 e2 Hij N1 N2 M1 M2 [_ E].
      apply M in M1 as [_ E1]; [|eapply nth_error_In; exact N1]. apply M in M2 as [_ E2]; [|eapply nth_error_In; exact N2].
      rewrite E1, E2 in E. destruct i as [|[|i]], j as [|[|j]]; cbn in N1, N2; try congruence;
        try (injection N1 as <-); try (injection N2 as <-); try (destruct i; discriminate N1); try (destruct j; discriminate N2); discriminate E.
    + intros t o line p [<-|[<-|[]]] N; inversion N as [nodes j t' o3 l0 p0 J N'| | | | | | | | | | | ]; subst; [lia|].
      destruct j as [|[|j]]; [| |destruct j; discriminate J]; injection J as <-; inversion N'; subst; lia.
    + intros t o k e I Me. apply M in Me as [E1 E2]; [|exact I]. rewrite E1, E2. split; [destruct t; discriminate|]. split; [intros []|discriminate].
  - intros fs l r src. right. exists ts, (rev ts). split; [reflexivity|]. split; [reflexivity|apply Permutation_rev].
  - eexists. apply (b_runs "T" [kw (B "T") 0 1 0] ts (vals (f_entries (b_file [kw (B "T") 0 1 0] "T" ts)))); [vm_compute; reflexivity|vm_compute; reflexivity|apply Permutation_refl|].
    split; [intros x [<-|[<-|[]]]; vm_compute; reflexivity|]. split; [intros x [<-|[]]; vm_compute; reflexivity|]. split; [intros x []|exact I].
Qed.
