From Verif Require Import GoStr GoStrFacts GoFmt FmtSpec GoFmtFacts.
From Coq Require Import Lia ZifyBool ZifyNat ZifyN.
Ltac Zify.zify_post_hook ::= Z.div_mod_to_equations.
Local Open Scope Z_scope.

Section Loop.
Context {A : Type}.
Variable as_int : arg A -> option Z.
Variable args : list (arg A).
Notation loop := (printf_loop as_int).
Definition run_piece (p : piece) (x : st) : list (chunk A) * st :=
  match p with PText s => ([CText s], x) | PDir d => run_dir as_int args d x end.
Fixpoint run_pieces (ps : list piece) (x : st) : list (chunk A) * st :=
  match ps with
  | [] => ([], x)
  | p :: r => let (o, x1) := run_piece p x in let (o', x2) := run_pieces r x1 in (o ++ o', x2)
  end.
Definition pct (s : bytes) : Prop := s = [] \/ exists t, s = "%"%char :: t.
Definition addout (o : list (chunk A)) (r : option (list (chunk A))) : option (list (chunk A)) :=
  match r with Some l => Some (o ++ l) | None => None end.
Lemma loop_nil f g x : loop (S f) args x [] = loop (S g) args x [].
Proof. reflexivity. Qed.
Lemma loop_text f x txt t : txt <> [] -> ~ In "%"%char txt -> pct t ->
  loop (S (S f)) args x (txt ++ t) = addout [CText txt] (loop (S (S f)) args x t).
Proof.
  intros Ne Np Ht.
  assert (Sp : span (fun c => negb (Ascii.eqb c "%")) (txt ++ t) = (txt, t)).
  { apply span_app.
    - apply forallb_forall. intros c I. destruct (Ascii.eqb_spec c "%") as [->|]; [contradiction|reflexivity].
    - intros c y E. destruct Ht as [-> | [u ->]]; [discriminate|]. injection E as <- _. reflexivity. }
  remember (S f) as g eqn:Eg. cbn [printf_loop]. rewrite Sp.
  destruct (txt ++ t) as [|c0 w] eqn:E0.
  { apply app_eq_nil in E0 as [-> _]. congruence. }
  destruct txt as [|c1 txt]; [congruence|]. clear Ne Np Sp E0 c0 w.
  destruct Ht as [-> | [u ->]].
  - subst g. cbn. reflexivity.
  - cbn [span]. change (negb (Ascii.eqb "%" "%")) with false. cbv iota.
    destruct (directive as_int args x u) as [[o x'] s3]. destruct (loop g args x' s3); cbn; [|reflexivity].
    reflexivity.
Qed.
Lemma loop_dir f x d rest : dir_ok d ->
  loop (S f) args x (dir_text d ++ rest) = let (o, x') := run_dir as_int args d x in addout o (loop f args x' rest).
Proof.
  intros Ok. pose proof (directive_run as_int args d x rest Ok) as D.
  change (dir_text d ++ rest) with ("%"%char :: (tl (dir_text d) ++ rest)).
  cbn [printf_loop span]. change (negb (Ascii.eqb "%" "%")) with false. cbv iota.
  rewrite D. destruct (run_dir as_int args d x) as [o x']. cbn [app]. reflexivity.
Qed.
Lemma dir_len d : dir_ok d -> (2 <= length (dir_text d))%nat.
Proof.
  intros (_ & V & _). destruct (verb_plain _ V) as (c & t & E & _). unfold dir_text. rewrite E.
  cbn [B list_ascii_of_string app length]. rewrite !app_length. cbn [length]. lia.
Qed.
Lemma format_pct ps t : pieces_ok ps -> pct t -> match ps with PText _ :: _ => True | _ => pct (format_text ps ++ t) end.
Proof.
  destruct ps as [|[s|d] ps]; auto. intros _ _. right. unfold format_text. cbn [map concat piece_text].
  rewrite <- app_assoc. eexists. reflexivity.
Qed.
Lemma addout_app o o' r : addout o (addout o' r) = addout (o ++ o') r.
Proof. destruct r; cbn; [rewrite app_assoc|]; reflexivity. Qed.
Lemma loop_pieces ps : forall x f t, pieces_ok ps -> pct t -> (length (format_text ps) + 2 <= f)%nat ->
  exists g, (f <= g + length (format_text ps))%nat /\
  loop f args x (format_text ps ++ t) = let (o, x') := run_pieces ps x in addout o (loop g args x' t).
Proof.
  induction ps as [|p ps IH]; intros x f t Ok Ht Hf.
  - exists f. split; [lia|]. cbn. destruct (loop f args x t); reflexivity.
  - destruct Ok as (Ok1 & Ok2 & Ok3). unfold format_text in *. cbn [map concat] in *. rewrite app_length in Hf.
    rewrite <- app_assoc. destruct p as [s|d]; cbn [piece_text piece_ok run_pieces run_piece] in *.
    + destruct Ok1 as [Ne Np]. destruct f as [|[|f]]; try lia.
      assert (Hp : pct (concat (map piece_text ps) ++ t)).
      { destruct ps as [|[s'|d'] ps]; [exact Ht|destruct Ok3|]. right. cbn [map concat piece_text]. rewrite <- app_assoc. eexists. reflexivity. }
      destruct (IH x (S (S f)) t Ok2 Ht) as (g & Hg & E); [lia|].
      exists g. split; [rewrite app_length; lia|]. rewrite (loop_text f x s _ Ne Np Hp), E.
      destruct (run_pieces ps x) as [o x']. apply addout_app.
    + destruct f as [|f]; [lia|]. pose proof (dir_len d Ok1) as Hl. rewrite (loop_dir f x d _ Ok1).
      destruct (run_dir as_int args d x) as [o1 x1].
      destruct (IH x1 f t Ok2 Ht) as (g & Hg & E); [lia|]. exists g. split; [rewrite app_length; lia|].
      rewrite E. destruct (run_pieces ps x1) as [o x']. apply addout_app.
Qed.
Definition start : st := {| s_arg := 0; s_good := true; s_reord := false |}.
Theorem chunks_pieces ps : pieces_ok ps ->
  printf_chunks as_int (format_text ps) args =
  let (o, x) := run_pieces ps start in
  Some (o ++ if negb (s_reord x) && Nat.ltb (s_arg x) (length args) then [CExtra (skipn (s_arg x) args)] else []).
Proof.
  intros Ok. unfold printf_chunks.
  destruct (loop_pieces ps start (S (length (format_text ps)) + 1) [] Ok (or_introl eq_refl)) as (g & Hg & E); [lia|].
  rewrite app_nil_r in E. fold start. rewrite E. destruct (run_pieces ps start) as [o x].
  destruct g as [|g]; [lia|]. reflexivity.
Qed.
Lemma run_pieces_app a b x : run_pieces (a ++ b) x =
  let (o, x1) := run_pieces a x in let (o', x2) := run_pieces b x1 in (o ++ o', x2).
Proof.
  revert x. induction a as [|p a IH]; intros x; cbn.
  - destruct (run_pieces b x); reflexivity.
  - destruct (run_piece p x) as [o x1]. rewrite IH. destruct (run_pieces a x1) as [o1 x2].
    destruct (run_pieces b x2) as [o2 x3]. rewrite app_assoc. reflexivity.
Qed.
(** directives never produce the marker *)
Definition no_extra (o : list (chunk A)) : Prop := forall vs, ~ In (CExtra vs) o.
Lemma no_extra_app a b : no_extra a -> no_extra b -> no_extra (a ++ b).
Proof. intros H1 H2 vs I. apply in_app_or in I as [I|I]; [exact (H1 vs I)|exact (H2 vs I)]. Qed.
Lemma no_extra_nil : no_extra [].
Proof. intros vs []. Qed.
Lemma no_extra_one c : (forall vs, c <> CExtra vs) -> no_extra [c].
Proof. intros H vs [E|[]]. exact (H vs E). Qed.
Hint Resolve no_extra_app no_extra_nil no_extra_one : noex.
Lemma run_dir_no_extra d x : no_extra (fst (run_dir as_int args d x)).
Proof.
  unfold run_dir. set (x0 := {| s_arg := s_arg x; s_good := true; s_reord := s_reord x |}).
  assert (W : no_extra (snd (run_wid as_int args (d_wid d) x0))).
  { destruct (d_wid d) as [|m|ix]; cbn; auto with noex. unfold star_wid.
    destruct (int_from_arg _ _ _) as [[z []] k]; cbn; auto with noex. apply no_extra_one. discriminate. }
  destruct (run_wid as_int args (d_wid d) x0) as [[w x1] o1]. cbn in W.
  assert (P : no_extra (snd (run_prec as_int args (d_prec d) x1 o1))).
  { destruct (d_prec d) as [| |ds|ix]; cbn; auto with noex. unfold star_prec.
    destruct (int_from_arg _ _ _) as [[z b] k]. cbn. destruct (b && _); auto with noex.
    apply no_extra_app; [exact W|]. apply no_extra_one. discriminate. }
  destruct (run_prec as_int args (d_prec d) x1 o1) as [[p x2] o2]. cbn in P.
  unfold run_verb. destruct (_ =? 37)%N; [|destruct (negb _); [|destruct (nth_error _ _)]]; cbn;
    (apply no_extra_app; [exact P|apply no_extra_one; discriminate]).
Qed.
Lemma run_pieces_no_extra ps x : no_extra (fst (run_pieces ps x)).
Proof.
  revert x. induction ps as [|p ps IH]; intros x; cbn; [apply no_extra_nil|].
  assert (P : no_extra (fst (run_piece p x))).
  { destruct p as [s|d]; cbn; [apply no_extra_one; discriminate|apply run_dir_no_extra]. }
  destruct (run_piece p x) as [o x1]. specialize (IH x1). destruct (run_pieces ps x1) as [o' x2].
  cbn in *. apply no_extra_app; assumption.
Qed.
End Loop.

(** ** The meaning of a format is what is run, also with further arguments *)
Section Meaning.
Context {A : Type}.
Variable as_int : arg A -> option Z.
Variables args ex : list (arg A).
Notation args' := (args ++ ex).
Lemma nth_ext k v : nth_error args k = Some v -> nth_error args' k = Some v.
Proof.
  intros H. rewrite nth_error_app1; [exact H|]. apply nth_error_Some. congruence.
Qed.
Lemma set_ix_in ix x : (at_ix ix (s_arg x) < length args)%nat \/ ix = None -> 
  set_ix args' ix x = {| s_arg := at_ix ix (s_arg x); s_good := s_good x; s_reord := s_reord x || given ix |}.
Proof.
  intros H. destruct ix as [p|]; cbn [set_ix at_ix given] in *.
  - destruct H as [H|H]; [|discriminate]. rewrite app_length.
    destruct (Nat.ltb_spec (Pos.to_nat p - 1) (length args + length ex)); [|lia]. rewrite orb_true_r. reflexivity.
  - destruct x. cbn. rewrite orb_false_r. reflexivity.
Qed.
Lemma nth_lt k (v : arg A) : nth_error args k = Some v -> (k < length args)%nat.
Proof. intros H. apply nth_error_Some. congruence. Qed.
Definition mk (k : nat) (r : bool) : st := {| s_arg := k; s_good := true; s_reord := r |}.
Definition wnamed (w : width) : bool := match w with WStar (Some _) => true | _ => false end.
Definition pnamed (p : precision) : bool := match p with PStar (Some _) => true | _ => false end.
Lemma star_int v k : nth_error args k = Some v ->
  int_from_arg as_int args' k = match star_ok as_int v with Some z => (z, true, S k) | None => (0, false, S k) end.
Proof.
  intros H. unfold int_from_arg, star_ok. rewrite (nth_ext k v H). destruct (as_int v) as [z|]; [|reflexivity].
  unfold too_large. destruct (Z.leb_spec (Z.abs z) 1000000); destruct ((z >? 1000000) || (z <? -1000000)) eqn:E; try reflexivity; lia.
Qed.
Lemma wid_run_ok w k o q k1 r : wid_means as_int args w k o q k1 ->
  run_wid as_int args' w (mk k r) = (q, mk k1 (r || wnamed w), o).
Proof.
  intros H. destruct H as [k|n k|ix k v z H1 H2|ix k v H1 H2]; cbn [run_wid wnamed].
  - rewrite orb_false_r. reflexivity.
  - rewrite orb_false_r. reflexivity.
  - rewrite set_ix_in by (left; eapply nth_lt; exact H1). unfold star_wid. cbn [s_arg mk].
    rewrite (star_int v _ H1), H2. unfold set_arg. cbn. destruct ix; rewrite ?orb_true_r, ?orb_false_r; reflexivity.
  - rewrite set_ix_in by (left; eapply nth_lt; exact H1). unfold star_wid. cbn [s_arg mk].
    rewrite (star_int v _ H1), H2. unfold set_arg. cbn. destruct ix; rewrite ?orb_true_r, ?orb_false_r; reflexivity.
Qed.
Lemma prec_run_ok p k o q k1 r pre : prec_means as_int args p k o q k1 ->
  run_prec as_int args' p (mk k r) pre = (q, mk k1 (r || pnamed p), pre ++ o).
Proof.
  intros H. destruct H as [k|k|ds v k E|ix k v z H1 H2 H3|ix k v H1 H2]; cbn [run_prec pnamed]; rewrite ?orb_false_r, ?app_nil_r.
  - reflexivity.
  - reflexivity.
  - rewrite E. reflexivity.
  - rewrite set_ix_in by (left; eapply nth_lt; exact H1). unfold star_prec. cbn [s_arg mk].
    rewrite (star_int v _ H1), H2. unfold set_arg. cbn.
    destruct (Z.ltb_spec z 0); [lia|]. destruct ix; cbn; rewrite ?orb_true_r, ?orb_false_r; reflexivity.
  - rewrite set_ix_in by (left; eapply nth_lt; exact H1). unfold star_prec. cbn [s_arg mk].
    rewrite (star_int v _ H1). unfold set_arg. cbn.
    destruct H2 as [-> | (z & -> & Hz)]; [|destruct (Z.ltb_spec z 0); [|lia]]; cbn;
      destruct ix; cbn; rewrite ?orb_true_r, ?orb_false_r; reflexivity.
Qed.
Lemma verb_percent v : verb_ok v -> (verb_rune v = 37%N <-> v = B "%").
Proof.
  intros V. split; [|intros ->; reflexivity]. intros E.
  destruct V as [(c & -> & H & _)|(r & H & V & ->)].
  - unfold verb_rune in E. rewrite decode_rune_ascii in E by exact H. cbn in E. change (B "%") with ["%"%char]. f_equal. apply code_inj. exact E.
  - unfold verb_rune in E. pose proof (encode_decode r [] V) as E0. rewrite app_nil_r in E0. rewrite E0 in E. cbn in E. lia.
Qed.
Lemma dir_run_ok d k o k1 r : dir_ok d -> means as_int args d k o k1 ->
  forall g, run_dir as_int args' d {| s_arg := k; s_good := g; s_reord := r |} = (o, mk k1 (r || named d)).
Proof.
  intros (_ & V & _) H g. destruct H as [d k o1 w k1 o2 p k2 Ev Hw Hp Hi|d k o1 w k1 o2 p k2 v Ev Hw Hp Hi];
    unfold run_dir; cbn [s_arg s_reord];
    change {| s_arg := k; s_good := true; s_reord := r |} with (mk k r);
    rewrite (wid_run_ok _ _ _ _ _ r Hw); rewrite (prec_run_ok _ _ _ _ _ _ o1 Hp).
  - rewrite set_ix_in by (destruct Hi; auto). cbn [s_arg s_good s_reord mk]. unfold run_verb. cbn [s_good negb s_arg].
    rewrite (proj2 (verb_percent _ V) Ev). cbn [N.eqb Pos.eqb]. rewrite <- app_assoc. unfold mk. do 2 f_equal.
    unfold named, wnamed, pnamed. destruct (d_ix d), (d_wid d) as [| |[|]], (d_prec d) as [| | |[|]]; cbn; rewrite ?orb_true_r, ?orb_false_r; reflexivity.
  - rewrite set_ix_in by (left; eapply nth_lt; exact Hi). cbn [s_arg s_good s_reord mk]. unfold run_verb. cbn [s_good negb s_arg].
    destruct (N.eqb_spec (verb_rune (d_verb d)) 37) as [E|_]; [apply (verb_percent _ V) in E; congruence|].
    rewrite (nth_ext _ _ Hi). rewrite <- app_assoc. unfold mk, set_arg. cbn. do 2 f_equal.
    unfold named, wnamed, pnamed. destruct (d_ix d), (d_wid d) as [| |[|]], (d_prec d) as [| | |[|]]; cbn; rewrite ?orb_true_r, ?orb_false_r; reflexivity.
Qed.
Lemma pieces_run_ok ps k o k1 : all_means as_int args ps k o k1 -> pieces_ok ps -> forall r,
  run_pieces as_int args' ps (mk k r) = (o, mk k1 (r || any_named ps)).
Proof.
  induction 1 as [k|s ps k o k' H IH|d ps k o k1 o' k' Hd H IH]; intros Ok r; cbn [run_pieces run_piece any_named existsb].
  - rewrite orb_false_r. reflexivity.
  - destruct Ok as (_ & Ok & _). rewrite (IH Ok r). reflexivity.
  - destruct Ok as (Okd & Ok & _). unfold mk at 1. rewrite (dir_run_ok d k o k1 r Okd Hd). rewrite (IH Ok _).
    rewrite orb_assoc. reflexivity.
Qed.
End Meaning.

(** ** Format *)
Section Format.
Context {A : Type}.
Variable print : spec -> arg A -> bytes.
Variable as_int : arg A -> option Z.
Variable extra : list (arg A) -> bytes.
Notation render := (render print extra).
Notation sprintf := (sprintf print as_int extra).
Notation format_f := (format_f print as_int extra).
Lemma render_app a b : render (a ++ b) = render a ++ render b.
Proof. unfold GoFmt.render. rewrite map_app, concat_app. reflexivity. Qed.
Definition suffix (m : positive) : dir := {| d_flags := []; d_wid := WNone; d_prec := PNone; d_ix := Some m; d_verb := B "s" |}.
Lemma suffix_text f z : sprintf (B "%s%%[%d]s") [VStr f; VInt z] = f ++ B "%[" ++ dec_Z z ++ B "]s".
Proof.
  unfold GoFmt.sprintf. vm_compute (printf_chunks _ _ _). unfold GoFmt.render. cbn [map concat show print_arg sp_flags sp_wid sp_prec sp_verb].
  cbn. rewrite <- ?app_assoc. cbn. reflexivity.
Qed.
Lemma suffix_ok m : small (Zpos m) -> dir_ok (suffix m).
Proof.
  intros S. split; [intros c []|]. split.
  - left. exists "s"%char. split; [reflexivity|]. split; [reflexivity|]. intros I. cbn in I.
    repeat (destruct I as [I|I]; [discriminate|]). exact I.
  - split; [intros p [= <-]; exact S|]. split; exact I.
Qed.
Lemma pieces_ok_snoc ps d : pieces_ok ps -> dir_ok d -> pieces_ok (ps ++ [PDir d]).
Proof.
  intros H Hd. induction ps as [|p ps IH]; cbn; [auto|]. destruct H as (H1 & H2 & H3).
  split; [exact H1|]. split; [apply IH, H2|]. destruct p; [|exact I]. destruct ps as [|[|] ps]; cbn; auto.
Qed.
Lemma format_unfold ps args m : args <> [] -> Zpos m = Z.of_nat (length args) + 1 ->
  format_f (format_text ps) args = sprintf (format_text (ps ++ [PDir (suffix m)])) (args ++ [VStr []]).
Proof.
  intros Ne Em. unfold GoFmt.format_f. destruct args as [|a args]; [congruence|]. cbv zeta.
  rewrite suffix_text. f_equal. unfold format_text. rewrite map_app, concat_app. f_equal.
  cbn [map concat piece_text]. rewrite app_nil_r. unfold dir_text, suffix, ix_text, wid_text, prec_text. cbn [d_flags d_wid d_prec d_ix d_verb].
  rewrite Em. change ([] ++ ?x) with x. rewrite <- !app_assoc. reflexivity.
Qed.
Lemma format_run ps args : pieces_ok ps -> args <> [] -> Z.of_nat (length args) < 1000000 ->
  format_f (format_text ps) args = render (fst (run_pieces as_int (args ++ [VStr []]) ps start)).
Proof.
  intros Ok Ne L. set (m := Pos.of_succ_nat (length args)).
  assert (Em : Zpos m = Z.of_nat (length args) + 1) by (unfold m; lia).
  assert (Ok' : pieces_ok (ps ++ [PDir (suffix m)])) by (apply pieces_ok_snoc; [exact Ok|apply suffix_ok; unfold small; lia]).
  rewrite (format_unfold ps args m Ne Em). unfold GoFmt.sprintf. rewrite (chunks_pieces as_int _ _ Ok').
  rewrite run_pieces_app. destruct (run_pieces as_int (args ++ [VStr []]) ps start) as [o x]. cbn [run_pieces run_piece fst].
  unfold run_dir, suffix. cbn [d_flags d_wid d_prec d_ix d_verb run_wid run_prec set_ix].
  rewrite app_length. cbn [length].
  destruct (Nat.ltb_spec (Pos.to_nat m - 1) (length args + 1)) as [_|H]; [|lia].
  unfold run_verb. change (verb_rune (B "s")) with 115%N. cbn [N.eqb Pos.eqb s_good negb s_arg].
  replace (Pos.to_nat m - 1)%nat with (length args) by lia. rewrite nth_error_app2 by lia. rewrite Nat.sub_diag. cbn [nth_error].
  cbn [s_reord set_arg negb andb app]. rewrite !render_app. cbn. rewrite !app_nil_r. reflexivity.
Qed.
Theorem format_means ps args o k : pieces_ok ps -> args <> [] -> Z.of_nat (length args) < 1000000 ->
  all_means as_int args ps 0 o k -> format_f (format_text ps) args = render o.
Proof.
  intros Ok Ne L M. rewrite (format_run ps args Ok Ne L).
  pose proof (pieces_run_ok as_int args [VStr []] ps 0 o k M Ok false) as E.
  change (mk 0 false) with start in E. rewrite E. reflexivity.
Qed.
Theorem sprintf_means ps args o k : pieces_ok ps -> all_means as_int args ps 0 o k ->
  sprintf (format_text ps) args =
  render o ++ (if any_named ps || Nat.leb (length args) k then [] else render [CExtra (skipn k args)]).
Proof.
  intros Ok M. unfold GoFmt.sprintf. rewrite (chunks_pieces as_int args ps Ok).
  pose proof (pieces_run_ok as_int args [] ps 0 o k M Ok false) as E. rewrite app_nil_r in E.
  change (mk 0 false) with start in E. rewrite E. cbn [s_reord s_arg mk orb].
  rewrite render_app. f_equal. destruct (any_named ps); [reflexivity|]. cbn [negb andb orb].
  destruct (Nat.ltb_spec k (length args)), (Nat.leb_spec (length args) k); try lia; reflexivity.
Qed.
Theorem format_no_extra ps args : pieces_ok ps -> args <> [] -> Z.of_nat (length args) < 1000000 ->
  exists o, format_f (format_text ps) args = render o /\ forall vs, ~ In (CExtra vs) o.
Proof.
  intros Ok Ne L. eexists. split; [apply (format_run ps args Ok Ne L)|]. apply run_pieces_no_extra.
Qed.
End Format.
