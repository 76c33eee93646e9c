(** Proofs about what xtemplate says about its command line. *)
From Coq Require Import Lia List ZArith NArith Bool Ascii.
From Verif Require Import GoStr GoStrFacts GoQuote XtModel WriteModel MainModel MainSpec MainFacts XtErrModel XtErrSpec XtUsageModel XtUsageSpec.
From Verif Require Import GoFmt XtErrFacts.
Import ListNotations.

Lemma indent_id s : ~ In NL s -> indent s = s.
Proof.
  induction s as [|c s IH]; intros H; [reflexivity|]. cbn [indent]. destruct (Ascii.eqb_spec c NL) as [->|_]; [destruct H; left; reflexivity|].
  rewrite IH; [reflexivity|]. intros I. apply H. right. exact I.
Qed.
Lemma cut_tick_none s : ~ In "`"%char s -> cut_tick s = None.
Proof.
  induction s as [|c s IH]; intros H; [reflexivity|]. cbn [cut_tick]. destruct (Ascii.eqb_spec c "`") as [->|_]; [destruct H; left; reflexivity|].
  rewrite IH; [reflexivity|]. intros I. apply H. right. exact I.
Qed.
Lemma flag_line_plain isp name kind text default : one_line text ->
  flag_line isp name kind text default =
  let b := B "  -" ++ name ++ match kind with [] => [] | _ => B " " ++ kind end in
  b ++ (if (length b <=? 4)%nat then [ascii_of_nat 9] else NL :: B "    " ++ [ascii_of_nat 9]) ++ text
  ++ match default with [] => [] | _ => B " (default " ++ quote isp default ++ B ")" end ++ [NL].
Proof. intros [H1 H2]. unfold flag_line, unquote_usage. rewrite cut_tick_none by exact H2. rewrite indent_id by exact H1. reflexivity. Qed.
Lemma defaults_lines isp tr : (forall m, In m explanations -> one_line (tr m)) -> forall head, head ++ defaults_text isp tr = concat (usage_lines head tr).
Proof.
  intros H head. unfold defaults_text, usage_lines. cbn [concat]. rewrite app_nil_r. f_equal.
  rewrite !flag_line_plain by (apply H; repeat (first [left; reflexivity|right])). cbn zeta.
  repeat rewrite <- app_assoc. reflexivity.
Qed.
Lemma reads_usage : reads usage_head [B "Usage of "; B ":" ++ [NL] ++ B "xtemplate -i input-pattern -k keywords [-f functions] [-o output]" ++ [NL]].
Proof.
  apply (RD_hole (B "Usage of ") (B "s") (B ":" ++ [NL] ++ B "xtemplate -i input-pattern -k keywords [-f functions] [-o output]" ++ [NL])
    [B ":" ++ [NL] ++ B "xtemplate -i input-pattern -k keywords [-f functions] [-o output]" ++ [NL]]).
  - vm_compute. intros H. repeat (destruct H as [H|H]; [discriminate|]). exact H.
  - right. left. reflexivity.
  - apply RD_end. vm_compute. intros H. repeat (destruct H as [H|H]; [discriminate|]). exact H.
Qed.
Lemma usage_says isp tr print as_int extra prog : explains_flags tr ->
  exists head, says tr usage_head [prog] head /\ usage_text isp tr print as_int extra prog = concat (usage_lines head tr).
Proof.
  intros [K E]. destruct (K _ reads_usage) as (ts & R & L). exists (fill ts [prog]). split; [exists ts; auto|].
  unfold usage_text. change (B "Usage of %s:" ++ NL :: B "xtemplate -i input-pattern -k keywords [-f functions] [-o output]" ++ [NL]) with usage_head.
  rewrite (errorf_reads print as_int extra _ ts [VStr prog] R); [|repeat constructor|exact L]. apply defaults_lines, E.
Qed.

(** ** Wrong arguments *)
Lemma cut_eq_no s n v : cut_eq s = (n, v) -> ~ In "="%char n.
Proof.
  revert n v. induction s as [|c s IH]; intros n v E; cbn [cut_eq] in E; [injection E as <- <-; intros []|].
  destruct (Ascii.eqb_spec c "=") as [->|N]; [injection E as <- <-; intros []|].
  destruct (cut_eq s) as [n' v'] eqn:C. injection E as <- <-. intros [I|I]; [congruence|]. exact (IH _ _ eq_refl I).
Qed.
Lemma read_name_shape s n v : read_name s = Flag n v -> exists c m, n = c :: m /\ c <> "-"%char /\ c <> "="%char /\ ~ In "="%char m.
Proof.
  destruct s as [|c s]; [discriminate|]. cbn [read_name]. destruct (Ascii.eqb_spec c "-"); [discriminate|].
  destruct (Ascii.eqb_spec c "="); [discriminate|]. cbn [orb]. destruct (cut_eq s) as [n' v'] eqn:E. intros [= <- <-].
  exists c, n'. repeat split; try assumption. exact (cut_eq_no _ _ _ E).
Qed.
Lemma read_name_bad s : read_name s = BadFlag -> s = [] \/ exists r, s = "-"%char :: r \/ s = "="%char :: r.
Proof.
  destruct s as [|c s]; [auto|]. cbn [read_name]. destruct (Ascii.eqb_spec c "-") as [->|]; [intros _; right; exists s; auto|].
  destruct (Ascii.eqb_spec c "=") as [->|]; [intros _; right; exists s; auto|]. cbn [orb]. destruct (cut_eq s). discriminate.
Qed.
Lemma read_arg_shape s n v : read_arg s = Flag n v -> exists c m, n = c :: m /\ c <> "-"%char /\ c <> "="%char /\ ~ In "="%char m.
Proof.
  destruct s as [|c [|e s]]; try discriminate. cbn [read_arg]. destruct (Ascii.eqb c "-"); [|discriminate].
  destruct (Ascii.eqb e "-"); [destruct s; [discriminate|]|]; apply read_name_shape.
Qed.
Lemma read_arg_bad s : read_arg s = BadFlag -> exists r, s = B "-=" ++ r \/ s = B "--=" ++ r \/ s = B "---" ++ r.
Proof.
  destruct s as [|c [|e s]]; try discriminate. cbn [read_arg]. destruct (Ascii.eqb_spec c "-") as [->|]; [|discriminate].
  destruct (Ascii.eqb_spec e "-") as [->|Ne].
  - destruct s as [|x s]; [discriminate|]. intros H. apply read_name_bad in H as [H|(r & [H|H])]; [discriminate| |]; injection H as -> ->; exists r; auto.
  - intros H. apply read_name_bad in H as [H|(r & [H|H])]; [discriminate| |]; injection H as -> ->; [congruence|exists r; auto].
Qed.
Lemma first_wrong_more isp name v a args text : spells name v a -> first_wrong isp args text -> first_wrong isp (a ++ args) text.
Proof.
  intros Sp W. destruct W as [vs b x l G H|vs b d c nm e l G Hd N1 N2 N3 He Nn|vs b d nm w l G Hd Hn N1 N2|vs b d nm G Hd Hn].
  - rewrite app_assoc. apply (FW_syntax isp ((name, v) :: vs)); [constructor; assumption|exact H].
  - rewrite app_assoc. apply (FW_unknown isp ((name, v) :: vs)); try assumption. constructor; assumption.
  - rewrite app_assoc. apply (FW_bool isp ((name, v) :: vs)); try assumption. constructor; assumption.
  - rewrite app_assoc. apply (FW_missing isp ((name, v) :: vs)); try assumption. constructor; assumption.
Qed.
Lemma flag_error_spec isp n : forall args x, (length args <= n)%nat -> parse_flags args x = PBad -> first_wrong isp args (flag_error isp args).
Proof.
  induction n as [|n IH]; intros args x L P; (destruct args as [|s rest]; [discriminate P|]); [cbn [length] in L; lia|].
  cbn [length] in L. cbn [parse_flags] in P. cbn [flag_error]. destruct (read_arg s) as [| | |name value] eqn:Er; try discriminate P.
  - apply (FW_syntax isp [] [] s rest); [constructor|]. apply read_arg_bad, Er.
  - destruct (read_arg_shape _ _ _ Er) as (c & m & En & N1 & N2 & N3). apply read_arg_spec in Er as (d & Hd & Es).
    destruct (lookup_cases name) as [(set & E & I1)|[(set & E & I1)|(E & M1 & M2)]]; rewrite E in P |- *.
    + destruct value as [v|].
      * apply (first_wrong_more isp name (VText v) [s]); [rewrite Es; apply Sp_text; assumption|]. apply (IH rest (set v x)); [lia|exact P].
      * rewrite app_nil_r in Es. destruct rest as [|v rest].
        -- rewrite Es. apply (FW_missing isp [] []); [constructor|exact Hd|exact I1].
        -- apply (first_wrong_more isp name (VText v) [s; v]); [rewrite Es; apply Sp_next; assumption|].
           apply (IH rest (set v x)); [cbn [length] in L; lia|exact P].
    + destruct value as [v|].
      * destruct (parse_bool v) as [b|] eqn:Eb.
        -- apply (first_wrong_more isp name (VBool b) [s]); [rewrite Es; apply Sp_bool; [exact Hd|exact I1|apply parse_bool_spec, Eb]|].
           apply (IH rest (set b x)); [lia|exact P].
        -- rewrite Es. apply (FW_bool isp [] []); [constructor|exact Hd|exact I1| |]; intros I2;
             [assert (Q : parse_bool v = Some true) by (apply parse_bool_spec; exact I2)|assert (Q : parse_bool v = Some false) by (apply parse_bool_spec; exact I2)]; congruence.
      * rewrite app_nil_r in Es. change (parse_bool (B "true")) with (Some true) in P |- *. cbv iota in P |- *.
        apply (first_wrong_more isp name (VBool true) [s]); [rewrite Es; apply Sp_flag; assumption|]. apply (IH rest (set true x)); [lia|exact P].
    + destruct (beq name (B "help")) eqn:Eh; [discriminate P|]. rewrite Es, En.
      apply (FW_unknown isp [] [] d c m); try assumption; [constructor|destruct value as [v|]; [right; exists v; reflexivity|left; reflexivity]|].
      rewrite <- En. intros [I1|I1]; [subst; rewrite <- I1, beq_refl in Eh; discriminate|]. apply in_app_or in I1 as [I1|I1]; contradiction.
Qed.
(** the first wrong argument is found *)
Lemma error_one isp name v a l : spells name v a -> flag_error isp (a ++ l) = flag_error isp l.
Proof.
  intros H.
  assert (Rt : forall d name, In d dashes -> In name text_flags \/ In name bool_flags -> read_arg (d ++ name) = Flag name None
               /\ forall v, read_arg (d ++ name ++ B "=" ++ v) = Flag name (Some v)).
  { clear. intros d name Hd [Hn|Hn]; cbn in Hd, Hn; repeat destruct Hd as [<-|Hd]; try destruct Hd; repeat destruct Hn as [<-|Hn]; try destruct Hn; split; reflexivity. }
  destruct H as [d v Hd Hn|d v Hd Hn|d Hd Hn|d b v Hd Hn Hv]; destruct (Rt d name Hd (ltac:(auto))) as [R1 R2]; cbn [app flag_error].
  - rewrite R1. destruct (lookup_cases name) as [(set & E & _)|[(set & E & I1)|(_ & N & _)]]; [rewrite E; reflexivity| |contradiction].
    exfalso. clear - Hn I1. cbn in *. intuition (subst; discriminate).
  - rewrite (R2 v). destruct (lookup_cases name) as [(set & E & _)|[(set & E & I1)|(_ & N & _)]]; [rewrite E; reflexivity| |contradiction].
    exfalso. clear - Hn I1. cbn in *. intuition (subst; discriminate).
  - rewrite R1. destruct (lookup_cases name) as [(set & E & I1)|[(set & E & _)|(_ & _ & N)]]; [|rewrite E; reflexivity|contradiction].
    exfalso. clear - Hn I1. cbn in *. intuition (subst; discriminate).
  - rewrite (R2 v). destruct (lookup_cases name) as [(set & E & I1)|[(set & E & _)|(_ & _ & N)]]; [| |contradiction].
    + exfalso. clear - Hn I1. cbn in *. intuition (subst; discriminate).
    + rewrite E. apply parse_bool_spec in Hv. rewrite Hv. reflexivity.
Qed.
Lemma error_gives isp vs a l : gives_flags vs a -> flag_error isp (a ++ l) = flag_error isp l.
Proof.
  induction 1 as [|name v a vs l' Sp G IH]; [reflexivity|]. rewrite <- app_assoc, (error_one isp name v) by exact Sp. exact IH.
Qed.
Lemma cut_eq_plain m e : ~ In "="%char m -> (e = [] \/ exists v, e = B "=" ++ v) -> fst (cut_eq (m ++ e)) = m.
Proof.
  intros N He. induction m as [|c m IH]; cbn [app cut_eq].
  - destruct He as [->|(v & ->)]; reflexivity.
  - destruct (Ascii.eqb_spec c "=") as [->|_]; [destruct N; left; reflexivity|]. specialize (IH (fun I => N (or_intror I))).
    destruct (cut_eq (m ++ e)). cbn [fst] in *. congruence.
Qed.
Lemma first_wrong_found isp args text x : first_wrong isp args text -> parse_flags args x = PBad /\ flag_error isp args = text.
Proof.
  intros W. destruct W as [vs b s l G H|vs b d c nm e l G Hd N1 N2 N3 He Nn|vs b d nm w l G Hd Hn N1 N2|vs b d nm G Hd Hn];
    rewrite (parse_gives vs) by exact G; rewrite (error_gives isp vs) by exact G; cbn [parse_flags flag_error].
  - assert (E : read_arg s = BadFlag) by (destruct H as (r & [->|[->| ->]]); reflexivity). rewrite E. auto.
  - assert (E : exists v, read_arg (d ++ (c :: nm) ++ e) = Flag (c :: nm) v).
    { assert (Q : exists v, read_name ((c :: nm) ++ e) = Flag (c :: nm) v).
      { cbn [app read_name]. destruct (Ascii.eqb_spec c "-"); [contradiction|]. destruct (Ascii.eqb_spec c "="); [contradiction|]. cbn [orb].
        pose proof (cut_eq_plain nm e N3 He) as C. destruct (cut_eq (nm ++ e)) as [n9 v]. cbn [fst] in C. subst n9. exists v. reflexivity. }
      destruct Q as [v Q]. exists v. destruct Hd as [<-|[<-|[]]].
      - change (B "-" ++ (c :: nm) ++ e) with ("-"%char :: c :: nm ++ e). cbn [read_arg Ascii.eqb Bool.eqb]. change (Ascii.eqb "-" "-") with true. cbv iota.
        destruct (Ascii.eqb_spec c "-"); [contradiction|]. exact Q.
      - exact Q. }
    destruct E as [v E]. rewrite E. destruct (lookup_cases (c :: nm)) as [(set & _ & I1)|[(set & _ & I1)|(L & _ & _)]].
    + exfalso. apply Nn. right. apply in_or_app. auto.
    + exfalso. apply Nn. right. apply in_or_app. auto.
    + rewrite L. split; [|reflexivity]. destruct (beq (c :: nm) (B "help")) eqn:Eh; [apply beq_eq in Eh; exfalso; apply Nn; left; auto|].
      destruct (beq (c :: nm) (B "h")) eqn:Eh2; [|reflexivity]. apply beq_eq in Eh2. exfalso. apply Nn. right. rewrite Eh2. cbn. tauto.
  - assert (R : read_arg (d ++ nm ++ B "=" ++ w) = Flag nm (Some w)).
    { cbn in Hd, Hn; repeat destruct Hd as [<-|Hd]; try destruct Hd; repeat destruct Hn as [<-|Hn]; try destruct Hn; reflexivity. }
    rewrite R. destruct (lookup_cases nm) as [(set & E & I1)|[(set & E & _)|(_ & _ & M)]]; [| |contradiction].
    + exfalso. clear - Hn I1. cbn in *. intuition (subst; discriminate).
    + rewrite E. destruct (parse_bool w) as [b0|] eqn:Eb; [|auto]. apply parse_bool_spec in Eb. destruct b0; contradiction.
  - assert (R : read_arg (d ++ nm) = Flag nm None).
    { cbn in Hd, Hn; repeat destruct Hd as [<-|Hd]; try destruct Hd; repeat destruct Hn as [<-|Hn]; try destruct Hn; reflexivity. }
    rewrite R. destruct (lookup_cases nm) as [(set & E & _)|[(set & E & I1)|(_ & M & _)]]; [rewrite E; auto| |contradiction].
    exfalso. clear - Hn I1. cbn in *. intuition (subst; discriminate).
Qed.
