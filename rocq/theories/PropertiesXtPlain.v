(** C49, which calls are overlooked: those of keywords with a gap and those in
    parentheses a field is taken of. *)
From Coq Require Import Lia.
From Verif Require Import GoStr GoMap FileModel XtModel XtSpec XtPlainSpec PropertiesXt.
Local Open Scope Z_scope.

Lemma all_cases p args n : in_pipe_all p args n <-> (exists o, in_pipe p o args n) \/ in_chain p args n.
Proof.
  split.
  - intros H. induction H as [p j args n A L|p cmd inner args n I1 I2 H IH|p cmd inner fields args n I1 I2 H IH].
    + left. exists [j; n]. constructor; assumption.
    + destruct IH as [(o & IH)|IH]; [left|right; eapply IC_paren; eassumption].
      apply In_nth_error in I1 as (j & Ej). apply In_nth_error in I2 as (i & Ei). exists (j :: i :: o). eapply IP_paren; eassumption.
    + right. eapply IC_here; eassumption.
  - intros [(o & H)|H].
    + induction H as [p j args n A L|p j cmd i inner o args n Ej Ei H IH]; [eapply IPA_here; eassumption|].
      eapply IPA_paren; [eapply nth_error_In, Ej|eapply nth_error_In, Ei|exact IH].
    + induction H as [p cmd inner fields args n I1 I2 H|p cmd inner args n I1 I2 H IH]; [eapply IPA_chain|eapply IPA_paren]; eassumption.
Qed.
Lemma chain_has p args n : in_chain p args n -> has_chain p.
Proof. intros H. induction H; [eapply HC_here|eapply HC_paren]; eassumption. Qed.

(** The calls of keywords in a template are those at a place the extraction
    looks at and those in parentheses a field is taken of; of the first, exactly
    the ones of keywords without a gap are extracted (C49_order_partial). *)
Theorem C49_exactly file kws t k e :
  message_all file kws t k e <-> (exists o, message file kws t o k e) \/ message_chain file kws t k e.
Proof.
  split.
  - intros (o & line & p & args & n & N & P & I & C). apply all_cases in P as [(o2 & P)|P].
    + left. apply In_nth_error in I as (i & I). exists (o ++ o2 ++ [i]), o, o2, i, line, p, args, n. auto.
    + right. exists o, line, p, args, n. auto.
  - intros [(o & o1 & o2 & i & line & p & args & n & _ & N & P & I & C)|(o & line & p & args & n & N & P & I & C)];
      [exists o1|exists o]; exists line, p, args, n; (split; [exact N|]); (split; [apply all_cases; eauto|]).
    + split; [eapply nth_error_In, I|exact C].
    + auto.
Qed.
Print Assumptions C49_exactly.
(** The claim in full for templates without such parentheses and keywords
    without a gap. *)
Theorem C49_plain file kws t k e : (forall o line p, in_node t o line p -> ~ has_chain p) -> (forall k, In k kws -> gapless k) ->
  message_all file kws t k e ->
  let c := resolve_node file t (new_ctx kws) in
  In e (c_rejected c) \/
  exists m, mget (e_key e) (c_entries c) = Some m /\ e_plural m = e_plural e /\ incl (e_cmts e) (e_cmts m).
Proof.
  intros H G M. apply C49_exactly in M as [(o & M)|(o & line & p & args & n & N & P & _)].
  - apply (C49_extracted_partial file kws t o k e M). apply G.
    destruct M as (_ & _ & i & _ & _ & _ & _ & _ & _ & _ & I & _). eapply nth_error_In, I.
  - destruct (H _ _ _ N). eapply chain_has, P.
Qed.
Print Assumptions C49_plain.
(** Non-vacuity: a template with a call in plain parentheses. *)
Example C49_plain_case :
  let t := TAction 1 [[AIdent (B "print"); APipe [[AIdent (B "T"); AStr (B "hello")]]]] in
  let kws := [kw (B "T") 0 1 0] in
  (forall o line p, in_node t o line p -> ~ has_chain p) /\ (forall k, In k kws -> gapless k)
  /\ exists e, message_all (B "a") kws t (kw (B "T") 0 1 0) e /\ e_id e = B "hello"
       /\ c_rejected (resolve_node (B "a") t (new_ctx kws)) = [].
Proof.
  cbv zeta. split; [|split].
  - intros o line p N. inversion N; subst. intros H.
    inversion H as [p cmd inner fields I1 I2 E|p cmd inner I1 I2 H2 E]; subst.
    + destruct I1 as [<-|[]]. destruct I2 as [I2|[I2|[]]]; discriminate.
    + destruct I1 as [<-|[]]. destruct I2 as [I2|[I2|[]]]; [discriminate|]. injection I2 as <-.
      inversion H2 as [p cmd inner fields I1 I2 E|p cmd inner I1 I2 H3 E]; subst; destruct I1 as [<-|[]]; destruct I2 as [I2|[I2|[]]]; discriminate.
  - intros k [<-|[]]. apply gapless_small. left; auto.
  - exists {| e_cmts := [B "#: a:1"]; e_ctxt := []; e_id := B "hello"; e_plural := false; e_id2 := []; e_str := []; e_strn := [] |}.
    split; [|split; [reflexivity|vm_compute; reflexivity]].
    exists [0%nat], 1. do 2 eexists. exists 0%nat. split; [apply IN_action|].
    split; [eapply IPA_paren; [left; reflexivity|right; left; reflexivity|apply (IPA_here _ 0)]|split; [left; reflexivity|]].
    + apply A_plain; [discriminate|reflexivity].
    + cbn; lia.
    + split; [eexists; split; [reflexivity|apply N_ident]|]. constructor; try reflexivity.
      * split; [cbn; lia|]. eexists; split; [reflexivity|apply L_str].
      * right. cbn. split; [intuition discriminate|]. split; [auto|reflexivity].
      * split; reflexivity.
Qed.
