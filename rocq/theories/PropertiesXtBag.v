(** Property C73, continued: what two extractions have in common in any case. *)
From Coq Require Import Lia Permutation Sorted.
From Verif Require Import GoStr GoStrFacts GoMap FileModel FileSpec PoModel PoSpec XtModel XtSpec XtKeyFacts XtFacts XtMergeFacts XtRunFacts
  XtRepSpec XtOrderFacts XtBagFacts PropertiesXt PropertiesXtRep.
Local Open Scope Z_scope.

(** ** C73: extraction is reproducible *)
(** Whatever is in the templates, two runs with the same parameters and files end
    in the same way.  If they fail they leave the same files and print the same.
    If they succeed they leave the same files apart from the output file. *)
Theorem C73_outcome : forall isp globs creatable P1 P2 letter number now p w o1 w1 out1 o2 w2 out2,
  same_templates P1 P2 ->
  runs isp globs creatable P1 letter number now p w o1 w1 out1 -> runs isp globs creatable P2 letter number now p w o2 w2 out2 ->
  o1 = o2 /\ (o1 <> ROk -> w1 = w2 /\ out1 = out2)
  /\ forall n, n <> p_output p \/ ~ is_file (p_output p) -> w1 n = w2 n.
Proof.
  intros isp globs creatable P1 P2 letter number now p w o1 w1 out1 o2 w2 out2 S R1 R2.
  destruct (runs_outcome _ _ _ _ _ _ _ S _ _ _ _ _ _ _ _ _ R1 R2) as [E F]. split; [exact E|]. split; [exact F|].
  intros n H. rewrite (C53_others _ _ _ _ _ _ _ _ _ _ _ _ n R1 H). symmetry. apply (C53_others _ _ _ _ _ _ _ _ _ _ _ _ n R2 H).
Qed.
Print Assumptions C73_outcome.
(** The two texts they produce have the same messages, with the same references
    in some order, unless a message is with plural in one and without in the
    other.  File names have no line breaks. *)
Theorem C73_messages : forall isp globs creatable P1 P2 letter number now p w w1 out1 w2 out2,
  same_templates P1 P2 ->
  runs isp globs creatable P1 letter number now p w ROk w1 out1 -> runs isp globs creatable P2 letter number now p w ROk w2 out2 ->
  (forall files, globs (opened p w) (p_input p) = Some files -> clean_names files) ->
  exists t1 t2 f1 f2, produced p w1 out1 t1 /\ produced p w2 out2 t2 /\ read_pot t1 = PoOk f1 /\ read_pot t2 = PoOk f2
  /\ (forall k, mget k (f_entries f1) = None <-> mget k (f_entries f2) = None)
  /\ forall k m1 m2, mget k (f_entries f1) = Some m1 -> mget k (f_entries f2) = Some m2 -> e_plural m1 = e_plural m2 ->
       Permutation (e_cmts m1) (e_cmts m2).
Proof.
  intros isp globs creatable P1 P2 letter number now p w w1 out1 w2 out2 S. apply runs_messages, S.
Qed.
Print Assumptions C73_messages.
(** the runs of [C73_order_refuted]: one message in two templates *)
Example C73_messages_case : let ts := [call 1 "x"; call 2 "x"] in
  same_templates (b_parses ts) (b_parses (rev ts))
  /\ (forall files, a_globs (opened (b_param "T") (a_fs "{{T}}")) (p_input (b_param "T")) = Some files -> clean_names files)
  /\ (exists out, runs no_chars a_globs all_ok (b_parses ts) no_chars no_chars [] (b_param "T") (a_fs "{{T}}") ROk (a_fs "{{T}}") out)
  /\ exists out, runs no_chars a_globs all_ok (b_parses (rev ts)) no_chars no_chars [] (b_param "T") (a_fs "{{T}}") ROk (a_fs "{{T}}") out.
Proof.
  cbv zeta. split; [intros fs l r src; right; eexists _, _; split; [reflexivity|]; split; [reflexivity|apply perm_swap]|].
  split. { intros files G. injection G as <-. intros n [<-|[]]. cbn. split; intuition discriminate. }
  split; (eexists; apply (b_runs "T" [kw (B "T") 0 1 0]); [vm_compute; reflexivity|vm_compute; reflexivity|apply Permutation_refl|];
    split; [intros x [<-|[]]; vm_compute; reflexivity|]; split; [intros x []|exact I]).
Qed.
