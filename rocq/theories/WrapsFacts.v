(** The errors a format takes are the ones the machine in GoFmt prints with the
    verb w. *)
From Coq Require Import Lia ZifyBool ZifyNat ZifyN.
From Verif Require Import GoStr GoStrFacts GoFmt FmtSpec GoFmtFacts FormatFacts FmtTextSpec FmtTextFacts ErrModel ErrSpec ErrFacts WrapsSpec.
Local Open Scope Z_scope.

Section Takes.
Context {A : Type}.
Variable as_int : arg (val A) -> option Z.
Variable args : list (arg (val A)).
Let print : spec -> arg (val A) -> bytes := fun _ _ => [].
Let extra : list (arg (val A)) -> bytes := fun _ => [].

Lemma run_wid_none w x : wrapped (snd (run_wid as_int args w x)) = [].
Proof. destruct w as [| |ix]; [reflexivity..|]. cbn [run_wid]. unfold star_wid. destruct (int_from_arg _ _ _) as [[z []] k]; reflexivity. Qed.
Lemma run_prec_none p x pre : wrapped (snd (run_prec as_int args p x pre)) = wrapped pre.
Proof.
  destruct p as [| | |ix]; [reflexivity..|]. cbn [run_prec]. unfold star_prec. destruct (int_from_arg _ _ _) as [[z i] k]. cbn [snd].
  destruct (_ && _)%bool; [reflexivity|]. rewrite wrapped_app. apply app_nil_r.
Qed.
Lemma run_dir_takes d x : dir_ok d -> let '(o, x') := run_dir as_int args d x in directive_takes as_int args d (s_arg x) (wrapped o) (s_arg x').
Proof.
  intros (_ & V & _ & _ & Hp). unfold run_dir. set (x0 := {| s_arg := s_arg x; s_good := true; s_reord := s_reord x |}).
  pose proof (wid_spec print as_int extra args (d_wid d) x0) as W. pose proof (run_wid_none (d_wid d) x0) as N1.
  destruct (run_wid as_int args (d_wid d) x0) as [[w x1] o1]. destruct W as (g1 & W & G1). cbn [snd] in N1.
  assert (Hd : forall ds, d_prec d = PNum ds -> exists v, digits_val 0 ds = Some v) by (intros ds E; rewrite E in Hp; destruct Hp as (v & E' & _); exists v; exact E').
  pose proof (prec_spec print as_int extra args (d_prec d) x1 o1 Hd) as P. pose proof (run_prec_none (d_prec d) x1 o1) as N2.
  destruct (run_prec as_int args (d_prec d) x1 o1) as [[p x2] o2]. destruct P as (g2 & o' & Eo & P & G2). cbn [snd] in N2. rewrite N1 in N2. clear Eo.
  destruct (points_spec extra args (d_ix d) x2) as [I G3]. set (g3 := match d_ix d with None => true | Some p => Nat.leb (Pos.to_nat p) (length args) end) in *.
  set (x3 := set_ix args (d_ix d) x2) in *.
  assert (G : s_good x3 = (g1 && g2 && g3)%bool) by (rewrite G3, G2, G1; reflexivity).
  assert (Q : forall c k, verb_takes args d (s_arg x3) (s_good x3) (wrapped1 c) k -> directive_takes as_int args d (s_arg x) (wrapped (o2 ++ [c])) k).
  { intros c k T. rewrite wrapped_app, N2. cbn [wrapped flat_map app]. rewrite app_nil_r, G in *.
    exact (DK_directive _ _ _ _ _ _ _ _ _ _ _ _ _ _ _ _ W P I T). }
  unfold run_verb. destruct (N.eqb_spec (verb_rune (d_verb d)) 37) as [E|E].
  { apply Q, VK_percent. apply verb_percent; assumption. }
  assert (Nv : d_verb d <> B "%") by (intros E'; apply E, verb_percent; assumption).
  destruct (s_good x3) eqn:Eg; cbn [negb].
  - destruct (nth_error args (s_arg x3)) as [v|] eqn:En.
    + apply Q. cbn [s_arg set_arg wrapped1 sp_verb]. destruct (N.eqb_spec (verb_rune (d_verb d)) 119) as [Ew|Ew].
      * apply (verb_w _ V) in Ew. destruct v as [s|z|[e| |a]]; try (apply (VK_value _ _ _ _ Ew En); discriminate). exact (VK_error _ _ _ _ Ew En).
      * assert (Nw : d_verb d <> B "w") by (intros E'; apply Ew; rewrite E'; reflexivity).
        destruct v as [s|z|[e| |a]]; exact (VK_printed _ _ _ _ Nv Nw En).
    + apply Q. apply VK_missing; [exact Nv|]. apply nth_error_None, En.
  - apply Q. apply VK_index. exact Nv.
Qed.
Lemma run_takes ps : forall x, pieces_ok ps -> let '(o, x') := run_pieces as_int args ps x in takes as_int args ps (s_arg x) (wrapped o) (s_arg x').
Proof.
  induction ps as [|p ps IH]; intros x Ok; cbn [run_pieces].
  - constructor.
  - destruct Ok as (Ok1 & Ok2 & _). destruct p as [s|d]; cbn [run_piece].
    + specialize (IH x Ok2). destruct (run_pieces as_int args ps x) as [o x2]. apply TK_text, IH.
    + pose proof (run_dir_takes d x Ok1) as D. destruct (run_dir as_int args d x) as [o1 x1].
      specialize (IH x1 Ok2). destruct (run_pieces as_int args ps x1) as [o x2]. rewrite wrapped_app. exact (TK_directive _ _ _ _ _ _ _ _ _ D IH).
Qed.
Lemma verb_takes_unique d k g o1 k1 o2 k2 : verb_takes args d k g o1 k1 -> verb_takes args d k g o2 k2 -> o1 = o2 /\ k1 = k2.
Proof.
  intros H H'. assert (N : forall k v, nth_error args k = Some v -> (k < length args)%nat) by (intros j v E; apply nth_error_Some; congruence).
  assert (Pw : B "w" <> B "%") by discriminate.
  destruct H; inversion H'; subst; try congruence; auto;
    repeat match goal with H : nth_error args ?k = Some ?v |- _ => pose proof (N _ _ H); revert H end; intros; try lia; split; congruence.
Qed.
Lemma takes_unique ps : forall k w1 k1 w2 k2, takes as_int args ps k w1 k1 -> takes as_int args ps k w2 k2 -> w1 = w2 /\ k1 = k2.
Proof.
  induction ps as [|p ps IH]; intros k w1 k1 w2 k2 H H'.
  - inversion H; inversion H'; subst; auto.
  - inversion H as [|s ps' k' t k'' W|d ps' k' u1 j1 u2 j2 D W]; subst; inversion H' as [|s' ps'' l' t' l'' W'|d' ps'' l' u1' i1 u2' i2 D' W']; subst.
    + exact (IH _ _ _ _ _ W W').
    + assert (X : u1 = u1' /\ j1 = i1).
      { destruct D as [d k t1 w k1' g1 t2 p k2' g2 k3 g3 o k4 Wd P I T]. inversion D' as [d' k' t1' w' k1'' g1' t2' p' k2'' g2' k3' g3' o' k4' Wd' P' I' T']; subst.
        destruct (width_unique print as_int extra args _ _ _ _ _ _ _ _ _ _ Wd Wd') as (_ & _ & <- & <-).
        destruct (precision_unique print as_int extra args _ _ _ _ _ _ _ _ _ _ P P') as (_ & _ & <- & <-).
        destruct (points_unique extra args _ _ _ _ _ _ I I') as (<- & <-). exact (verb_takes_unique _ _ _ _ _ _ _ T T'). }
      destruct X as [<- <-]. destruct (IH _ _ _ _ _ W W') as [<- <-]. auto.
Qed.
End Takes.

Section Wrapf.
Context {A : Type}.
Variable print : spec -> arg (val A) -> bytes.
Variable as_int : arg (val A) -> option Z.
Variable extra : list (arg (val A)) -> bytes.
Lemma wrapf_takes next e ps args : pieces_ok ps -> exists m ws k, takes as_int (args ++ [boxed e]) ps 0 ws k
  /\ Wrapf print as_int extra next e (format_text ps) args
     = Err next m (fun _ => false) (ws ++ match nth_error (args ++ [boxed e]) k with Some (VOther (VErr x)) => [x] | _ => [] end).
Proof.
  intros Ok. unfold Wrapf. rewrite <- with_colon_text.
  destruct (errorf_pieces print as_int extra next (with_colon ps) (args ++ [boxed e]) (with_colon_ok ps Ok)) as [m E]. exists m. rewrite E.
  pose proof (run_takes as_int (args ++ [boxed e]) ps start Ok) as T. destruct (run_pieces as_int (args ++ [boxed e]) ps start) as [o x] eqn:R.
  exists (wrapped o), (s_arg x). split; [exact T|]. f_equal. destruct (run_colon as_int _ _ _ _ _ R) as (o' & R' & W). rewrite R'.
  unfold run_dir, wdir. cbn [d_flags d_wid d_prec d_ix d_verb run_wid run_prec set_ix s_arg s_reord].
  unfold run_verb. change (verb_rune (B "w")) with 119%N. cbn [N.eqb Pos.eqb s_good negb s_arg].
  destruct (nth_error (args ++ [boxed e]) (s_arg x)) as [v|]; cbn [fst app]; rewrite wrapped_app, W; f_equal. destruct v as [| |[]]; reflexivity.
Qed.
(** a directive left open takes the colon for its verb *)
Lemma open_text_colon d : d_verb d = B ":" -> open_text d ++ B ": %w" = dir_text d ++ B " %w".
Proof. intros E. unfold open_text, dir_text. rewrite E, <- !app_assoc. reflexivity. Qed.
Lemma pieces_ok_snoc ps d q : pieces_ok (ps ++ [PDir d]) -> pieces_ok q -> pieces_ok ((ps ++ [PDir d]) ++ q).
Proof.
  induction ps as [|p ps IH]; intros Ok Oq.
  - destruct Ok as (O1 & _). cbn [app pieces_ok]. split; [exact O1|]. split; [exact Oq|exact I].
  - cbn [app pieces_ok] in Ok |- *. destruct Ok as (O1 & O2 & O3). split; [exact O1|]. split; [apply IH; assumption|].
    destruct p; [|exact I]. destruct ps as [|[|]]; [exact I|destruct O3|exact I].
Qed.
Lemma run_pieces_app args ps : forall qs x, run_pieces as_int args (ps ++ qs) x
  = let (o1, x1) := run_pieces as_int args ps x in let (o2, x2) := run_pieces as_int args qs x1 in (o1 ++ o2, x2).
Proof.
  induction ps as [|p ps IH]; intros qs x; cbn [app run_pieces].
  - destruct (run_pieces as_int args qs x); reflexivity.
  - destruct (run_piece as_int args p x) as [o1 x1]. rewrite IH. destruct (run_pieces as_int args ps x1) as [o2 x2].
    destruct (run_pieces as_int args qs x2) as [o3 x3]. rewrite app_assoc. reflexivity.
Qed.
Lemma wrapf_open_takes next e ps d args : pieces_ok (ps ++ [PDir d]) -> d_verb d = B ":" ->
  exists m ws k, takes as_int (args ++ [boxed e]) (ps ++ [PDir d]) 0 ws k
  /\ Wrapf print as_int extra next e (format_text ps ++ open_text d) args
     = Err next m (fun _ => false) (ws ++ match nth_error (args ++ [boxed e]) k with Some (VOther (VErr x)) => [x] | _ => [] end).
Proof.
  intros Ok Ev. unfold Wrapf. set (qs := [PText (B " "); PDir wdir]).
  assert (Oq : pieces_ok qs).
  { split; [split; [discriminate|]|]. { intros [H|[]]. discriminate H. } split; [split; [exact wdir_ok|split; exact I]|exact I]. }
  assert (Et : (format_text ps ++ open_text d) ++ B ": %w" = format_text ((ps ++ [PDir d]) ++ qs)).
  { rewrite <- app_assoc, open_text_colon by exact Ev. unfold format_text. rewrite !map_app, !concat_app. cbn [map concat piece_text qs].
    rewrite !app_nil_r, <- !app_assoc. reflexivity. }
  rewrite Et. destruct (errorf_pieces print as_int extra next _ (args ++ [boxed e]) (pieces_ok_snoc ps d qs Ok Oq)) as [m E]. exists m. rewrite E.
  pose proof (run_takes as_int (args ++ [boxed e]) _ start Ok) as T. rewrite run_pieces_app.
  destruct (run_pieces as_int (args ++ [boxed e]) (ps ++ [PDir d]) start) as [o x] eqn:R.
  exists (wrapped o), (s_arg x). split; [exact T|]. f_equal. subst qs. cbn [run_pieces run_piece].
  unfold run_dir, wdir. cbn [d_flags d_wid d_prec d_ix d_verb run_wid run_prec set_ix s_arg s_reord].
  unfold run_verb. change (verb_rune (B "w")) with 119%N. cbn [N.eqb Pos.eqb s_good negb s_arg].
  destruct (nth_error (args ++ [boxed e]) (s_arg x)) as [v|]; cbn [fst app]; rewrite wrapped_app; f_equal. destruct v as [| |[]]; reflexivity.
Qed.
End Wrapf.
