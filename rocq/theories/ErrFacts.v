(** Facts about errors. *)
From Coq Require Import Lia ZifyBool ZifyNat ZifyN.
From Verif Require Import GoStr GoStrFacts GoFmt FmtSpec GoFmtFacts FormatFacts ErrModel ErrSpec.
Local Open Scope Z_scope.

Section ErrInd.
Variable P : err -> Prop.
Hypothesis H : forall id m f kids, (forall k, In k kids -> P k) -> P (Err id m f kids).
Fixpoint err_rec (e : err) : P e :=
  match e with
  | Err id m f kids => H id m f kids
      ((fix go (l : list err) : forall k, In k l -> P k :=
          match l with
          | [] => fun k I => match I with end
          | x :: r => fun k I => match I with or_introl E => eq_ind x P (err_rec x) k E | or_intror I' => go r k I' end
          end) kids)
  end.
End ErrInd.
Lemma is_sees cmp t e : is_ cmp e (e_ident t) = true <-> sees cmp e t.
Proof.
  induction e as [id m f kids IH] using err_rec. cbn [is_]. rewrite !orb_true_iff, andb_true_iff, Nat.eqb_eq, existsb_exists.
  split.
  - intros [[[C E]|M]|(k & I & S)].
    + exists (Err id m f kids). split; [constructor|]. left. auto.
    + exists (Err id m f kids). split; [constructor|]. right. exact M.
    + apply (IH k I) in S as (d & D & S). exists d. split; [|exact S]. econstructor; eassumption.
  - intros (d & D & S). inversion D as [e E1|d' k id' m' f' kids' I D' E1 E2]; subst.
    + destruct S as [S|S]; auto.
    + right. exists k. split; [exact I|]. apply (IH k I). exists d. auto.
Qed.
Lemma sees_node cmp id m kids t : sees cmp (Err id m (fun _ => false) kids) t <->
  (cmp = true /\ id = e_ident t) \/ exists k, In k kids /\ sees cmp k t.
Proof.
  split.
  - intros (d & D & S). inversion D as [e E1|d' k id' m' f' kids' I D' E1 E2]; subst.
    + destruct S as [S|S]; [left; exact S|discriminate].
    + right. exists k. split; [exact I|]. exists d. auto.
  - intros [[C E]|(k & I & d & D & S)].
    + eexists. split; [constructor|]. left. auto.
    + exists d. split; [|exact S]. econstructor; eassumption.
Qed.

Section Facts.
Context {A : Type}.
Notation value := (arg (val A)).
Variable print : spec -> value -> bytes.
Variable as_int : value -> option Z.
Variable extra : list value -> bytes.

Lemma wrapped_app a b : wrapped (A := A) (a ++ b) = wrapped a ++ wrapped b.
Proof. apply flat_map_app. Qed.
Lemma wrapped_under (out : list (chunk (val A))) e : In e (wrapped out) <-> under_w out e.
Proof.
  unfold wrapped. rewrite in_flat_map. split.
  - intros (c & I & H). destruct c as [|[fl w p v] a| | | | | | |]; cbn in H; try destruct H.
    destruct a as [| |[e'| |]]; try destruct H. destruct (N.eqb_spec v 119) as [->|]; [|destruct H].
    destruct H as [->|[]]. exists fl, w, p. exact I.
  - intros (fl & w & p & I). eexists. split; [exact I|]. left. reflexivity.
Qed.

(** the pieces of a format followed by a colon and one more verb *)
Definition wdir : dir := {| d_flags := []; d_wid := WNone; d_prec := PNone; d_ix := None; d_verb := B "w" |}.
Fixpoint with_colon (ps : list piece) : list piece :=
  match ps with
  | [] => [PText (B ": "); PDir wdir]
  | [PText s] => [PText (s ++ B ": "); PDir wdir]
  | p :: r => p :: with_colon r
  end.
Lemma with_colon_cons p q r : with_colon (p :: q :: r) = p :: with_colon (q :: r).
Proof. destruct p; reflexivity. Qed.
Lemma with_colon_text ps : format_text (with_colon ps) = format_text ps ++ B ": %w".
Proof.
  induction ps as [|p [|q r] IH]; [reflexivity| |].
  - destruct p as [s|d]; unfold format_text; cbn [with_colon map concat piece_text]; rewrite <- !app_assoc; reflexivity.
  - rewrite with_colon_cons. unfold format_text in *. cbn [map concat] in *. rewrite IH. rewrite <- !app_assoc. reflexivity.
Qed.
Lemma wdir_ok : dir_ok wdir.
Proof.
  split; [intros c []|]. split; [|split; [intros p [=]|split; exact I]].
  left. exists "w"%char. split; [reflexivity|]. split; [reflexivity|].
  intros H. cbn in H. repeat (destruct H as [H|H]; [discriminate|]). exact H.
Qed.
Lemma colon_ok : piece_ok (PText (B ": ")).
Proof. split; [discriminate|]. intros H. cbn in H. repeat (destruct H as [H|H]; [discriminate|]). exact H. Qed.
Lemma with_colon_ok ps : pieces_ok ps -> pieces_ok (with_colon ps).
Proof.
  induction ps as [|p [|q r] IH]; intros Ok.
  - split; [exact colon_ok|]. split; [|exact I]. split; [exact wdir_ok|]. split; exact I.
  - destruct p as [s|d].
    + destruct Ok as ((N & P) & _). cbn [with_colon pieces_ok]. split; [|split; [|exact I]].
      * split; [destruct s; discriminate|]. intros H. apply in_app_or in H as [H|H]; [exact (P H)|]. exact (proj2 colon_ok H).
      * split; [exact wdir_ok|]. split; exact I.
    + destruct Ok as (D & _). cbn [with_colon pieces_ok]. split; [exact D|]. split; [|exact I].
      split; [exact colon_ok|]. split; [|exact I]. split; [exact wdir_ok|]. split; exact I.
  - rewrite with_colon_cons. cbn [pieces_ok] in Ok. destruct Ok as (O1 & O2 & O3). split; [exact O1|]. split; [apply IH, O2|].
    destruct p; [|exact I]. destruct q; [destruct O3|]. destruct r; exact I.
Qed.
(** appending the error leaves the meaning of the format *)
Lemma run_colon args ps x o x' : run_pieces as_int args ps x = (o, x') ->
  exists o', run_pieces as_int args (with_colon ps) x =
    (let (w, y) := run_dir as_int args wdir x' in (o' ++ w, y)) /\ wrapped o' = wrapped o.
Proof.
  revert x o. induction ps as [|p [|q r] IH]; intros x o E.
  - injection E as <- <-. exists [CText (B ": ")]. split; [|reflexivity].
    cbn [with_colon run_pieces run_piece]. destruct (run_dir as_int args wdir x) as [w y].
    cbn [app]. rewrite app_nil_r. reflexivity.
  - destruct p as [s|d].
    + injection E as <- <-. exists [CText (s ++ B ": ")]. split; [|reflexivity].
      cbn [with_colon run_pieces run_piece]. destruct (run_dir as_int args wdir x) as [w y].
      cbn [app]. rewrite app_nil_r. reflexivity.
    + cbn [run_pieces run_piece] in E. destruct (run_dir as_int args d x) as [o1 x1] eqn:E1. rewrite app_nil_r in E. injection E as <- <-.
      exists (o1 ++ [CText (B ": ")]). split; [|rewrite wrapped_app; cbn; apply app_nil_r].
      cbn [with_colon run_pieces run_piece]. rewrite E1. destruct (run_dir as_int args wdir x1) as [w y].
      rewrite <- app_assoc. cbn [app]. rewrite app_nil_r. reflexivity.
  - rewrite with_colon_cons. cbn [run_pieces] in E |- *.
    destruct (run_piece as_int args p x) as [o1 x1]. 
    destruct (let (o2, x2) := run_piece as_int args q x1 in let (o3, x3) := run_pieces as_int args r x2 in (o2 ++ o3, x3)) as [o2 x2] eqn:E2.
    injection E as <- <-. destruct (IH x1 o2 E2) as (o' & E' & W). rewrite E'.
    destruct (run_dir as_int args wdir x2) as [w y]. exists (o1 ++ o'). split; [rewrite app_assoc; reflexivity|].
    rewrite !wrapped_app, W. reflexivity.
Qed.
Lemma errorf_pieces next ps args : pieces_ok ps -> exists m,
  errorf print as_int extra next (format_text ps) args
  = Err next m (fun _ => false) (wrapped (fst (run_pieces as_int args ps start))).
Proof.
  intros Ok. unfold errorf. rewrite (chunks_pieces as_int args ps Ok).
  destruct (run_pieces as_int args ps start) as [o x]. cbn [fst]. eexists. f_equal.
  rewrite wrapped_app. destruct (negb (s_reord x) && _)%bool; cbn [wrapped flat_map wrapped1 app]; apply app_nil_r.
Qed.
Lemma wrapf_kids next e ps args out : pieces_ok ps -> all_means as_int args ps 0 out (length args) ->
  exists m, Wrapf print as_int extra next e (format_text ps) args
    = Err next m (fun _ => false) (wrapped out ++ match e with Some x => [x] | None => [] end).
Proof.
  intros Ok M. unfold Wrapf. rewrite <- with_colon_text.
  destruct (errorf_pieces next (with_colon ps) (args ++ [boxed e]) (with_colon_ok ps Ok)) as [m E]. exists m. rewrite E. f_equal.
  pose proof (pieces_run_ok as_int args [boxed e] ps 0 out (length args) M Ok false) as R.
  change (mk 0 false) with start in R. destruct (run_colon _ _ _ _ _ R) as (o' & R' & W). rewrite R'.
  unfold run_dir, wdir. cbn [d_flags d_wid d_prec d_ix d_verb run_wid run_prec set_ix mk s_arg s_reord].
  unfold run_verb. change (verb_rune (B "w")) with 119%N. cbn [N.eqb Pos.eqb s_good negb s_arg].
  rewrite nth_error_app2 by lia. rewrite Nat.sub_diag. cbn [nth_error fst app]. rewrite wrapped_app, W. f_equal.
  destruct e as [x|]; reflexivity.
Qed.
Lemma secondary_kids next a b : exists m,
  WithSecondaryError print as_int extra next a b
  = Err next m (fun _ => false) (match a with Some x => [x] | None => [] end ++ match b with Some x => [x] | None => [] end).
Proof. destruct a as [a|], b as [b|]; eexists; reflexivity. Qed.

Lemma verb_w v : verb_ok v -> verb_rune v = 119%N -> v = B "w".
Proof.
  intros [(c & -> & H & _)|(r & H & V & ->)] E.
  - unfold verb_rune in E. rewrite decode_rune_ascii in E by exact H. cbn [fst] in E.
    change 119%N with (code "w"%char) in E. apply code_inj in E. subst c. reflexivity.
  - exfalso. unfold verb_rune in E. pose proof (encode_decode r [] V) as D. rewrite app_nil_r in D. rewrite D in E. cbn [fst] in E. lia.
Qed.
Lemma wid_no_w args w k o q k1 : wid_means as_int args w k o q k1 -> wrapped o = [].
Proof. destruct 1; reflexivity. Qed.
Lemma prec_no_w args w k o q k1 : prec_means as_int args w k o q k1 -> wrapped o = [].
Proof. destruct 1; reflexivity. Qed.
Lemma plain_no_w args ps k o k1 : all_means as_int args ps k o k1 -> pieces_ok ps ->
  (forall d, In (PDir d) ps -> d_verb d <> B "w") -> wrapped o = [].
Proof.
  induction 1 as [k|s ps k o k' H IH|d ps k o k1 o' k' Hd H IH]; intros Ok W.
  - reflexivity.
  - destruct Ok as (_ & Ok & _). cbn [wrapped flat_map wrapped1 app]. apply IH; [exact Ok|]. intros d I. apply W. right. exact I.
  - destruct Ok as (Okd & Ok & _). rewrite wrapped_app. rewrite (IH Ok) by (intros d' I; apply W; right; exact I).
    rewrite app_nil_r. specialize (W d (or_introl eq_refl)). destruct Okd as (_ & V & _).
    destruct Hd as [d k o1 w k1 o2 p k2 Ev Hw Hp Hi|d k o1 w k1 o2 p k2 v Ev Hw Hp Hi]; rewrite !wrapped_app, (wid_no_w _ _ _ _ _ _ Hw), (prec_no_w _ _ _ _ _ _ Hp).
    + reflexivity.
    + cbn. destruct v as [| |[e| |]]; try reflexivity. destruct (N.eqb_spec (verb_rune (d_verb d)) 119) as [E|_]; [|reflexivity].
      destruct W. apply (verb_w _ V E).
Qed.
Lemma nest_next next (x : nest A) : (next <= snd (nest_eval print as_int extra next x))%nat.
Proof.
  revert next. induction x as [e|ps args|x IH ps args|x IHx y IHy]; intros next; cbn [nest_eval snd]; try lia.
  - specialize (IH next). destruct (nest_eval print as_int extra next x) as [e n]. cbn [snd] in *. lia.
  - specialize (IHx next). destruct (nest_eval print as_int extra next x) as [e n]. cbn [snd] in *.
    specialize (IHy n). destruct (nest_eval print as_int extra n y) as [e' n']. cbn [snd] in *. lia.
Qed.
Lemma nest_sees cmp t (x : nest A) : forall next, plain_nest as_int x -> (e_ident t < next)%nat ->
  (sees cmp (fst (nest_eval print as_int extra next x)) t <-> exists l, In l (leaves x) /\ sees cmp l t).
Proof.
  induction x as [e|ps args|x IH ps args|x IHx y IHy]; intros next P L; cbn [nest_eval fst leaves].
  - split; [intros S; exists e; split; [left; reflexivity|exact S]|intros (l & [->|[]] & S); exact S].
  - destruct P as (Ok & W & out & M). unfold Errorf. destruct (errorf_pieces next ps args Ok) as [m E]. rewrite E.
    pose proof (pieces_run_ok as_int args [] ps 0 out _ M Ok false) as R. rewrite app_nil_r in R.
    change (mk 0 false) with start in R. rewrite R. cbn [fst]. rewrite (plain_no_w _ _ _ _ _ M Ok W), sees_node.
    split; [intros [[_ N]|(k & [] & _)]; lia|intros (l & [] & _)].
  - destruct P as (P & Ok & W & out & M). pose proof (nest_next next x) as N. specialize (IH next P L).
    destruct (nest_eval print as_int extra next x) as [e n]. cbn [fst snd] in *.
    destruct (wrapf_kids n (Some e) ps args out Ok M) as [m E]. rewrite E, (plain_no_w _ _ _ _ _ M Ok W), sees_node, <- IH.
    cbn [app]. split; [intros [[_ E']|(k & [<-|[]] & S)]; [lia|exact S]|intros S; right; exists e; split; [left; reflexivity|exact S]].
  - destruct P as (Px & Py). pose proof (nest_next next x) as N. specialize (IHx next Px L).
    destruct (nest_eval print as_int extra next x) as [e n]. cbn [fst snd] in *.
    pose proof (nest_next n y) as N'. specialize (IHy n Py ltac:(lia)).
    destruct (nest_eval print as_int extra n y) as [e' n']. cbn [fst snd] in *.
    destruct (secondary_kids n' (Some e) (Some e')) as [m E]. rewrite E, sees_node. cbn [app]. split.
    + intros [[_ E']|(k & [<-|[<-|[]]] & S)]; [lia| |].
      * apply IHx in S as (l & I & S). exists l. split; [apply in_or_app; auto|exact S].
      * apply IHy in S as (l & I & S). exists l. split; [apply in_or_app; auto|exact S].
    + intros (l & I & S). right. apply in_app_or in I as [I|I].
      * exists e. split; [left; reflexivity|]. apply IHx. eauto.
      * exists e'. split; [right; left; reflexivity|]. apply IHy. eauto.
Qed.
Lemma listen_sees cmp antlr t texts : forall next d e, listen print as_int extra antlr next d texts = Some e ->
  sees cmp (match d with Some x => x | None => antlr end) t -> texts <> [] \/ d <> None -> sees cmp e t.
Proof.
  induction texts as [|m r IH]; intros next d e E Sd H.
  - cbn in E. subst d. exact Sd.
  - cbn [listen] in E. apply IH in E; [exact E| |right; discriminate]. unfold add_error.
    set (x := match d with None => Some antlr | Some _ => d end).
    destruct (secondary_kids (S next) x (Some (Err next m (fun _ => false) []))) as [m' ->].
    apply sees_node. right. destruct d as [d|]; subst x; (eexists; split; [left; reflexivity|exact Sd]).
Qed.
End Facts.
