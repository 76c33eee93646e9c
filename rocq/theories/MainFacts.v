(** Facts about the command line of xtemplate. *)
From Coq Require Import Lia.
From Verif Require Import GoStr GoStrFacts MainModel MainSpec.

Definition set_one (x : flags) (nv : bytes * value) : flags :=
  match lookup (fst nv), snd nv with
  | Some (FString set), VText v => set v x
  | Some (FBool set), VBool b => set b x
  | _, _ => x
  end.
Definition set_all (vs : list (bytes * value)) (x : flags) : flags := fold_left set_one vs x.

Lemma cut_eq_spec s n v : cut_eq s = (n, v) -> s = n ++ match v with Some v => B "=" ++ v | None => [] end.
Proof.
  revert n v. induction s as [|c s IH]; intros n v E; cbn [cut_eq] in E; [injection E as <- <-; reflexivity|].
  destruct (Ascii.eqb_spec c "=") as [->|N]; [injection E as <- <-; reflexivity|].
  destruct (cut_eq s) as [n' v']. injection E as <- <-. cbn [app]. f_equal. apply IH. reflexivity.
Qed.
Lemma read_name_spec s n v : read_name s = Flag n v -> s = n ++ match v with Some v => B "=" ++ v | None => [] end.
Proof.
  destruct s as [|c s]; [discriminate|]. cbn [read_name]. destruct (Ascii.eqb c "-" || Ascii.eqb c "="); [discriminate|].
  destruct (cut_eq s) as [n' v'] eqn:E. intros [= <- <-]. cbn [app]. f_equal. apply cut_eq_spec, E.
Qed.
Lemma read_arg_spec s n v : read_arg s = Flag n v -> exists d, In d dashes /\ s = d ++ n ++ match v with Some v => B "=" ++ v | None => [] end.
Proof.
  destruct s as [|c [|e s]]; try discriminate. cbn [read_arg]. destruct (Ascii.eqb_spec c "-") as [->|N]; [|discriminate].
  destruct (Ascii.eqb_spec e "-") as [->|N].
  - destruct s as [|x s]; [discriminate|]. intros E. apply read_name_spec in E. exists (B "--"). split; [right; left; reflexivity|].
    rewrite E. reflexivity.
  - intros E. apply read_name_spec in E. exists (B "-"). split; [left; reflexivity|]. rewrite E. reflexivity.
Qed.
Lemma read_arg_rest s : read_arg s = NoFlag -> s = [] \/ s = B "-" \/ exists c r, s = c :: r /\ c <> "-"%char.
Proof.
  destruct s as [|c [|e s]]; intros E; [left; reflexivity| |].
  - right. destruct (Ascii.eqb_spec c "-") as [->|N]; [left; reflexivity|right; exists c, []; split; [reflexivity|exact N]].
  - right. right. cbn [read_arg] in E. destruct (Ascii.eqb_spec c "-") as [->|N]; [|exists c, (e :: s); split; [reflexivity|exact N]].
    assert (Q : forall x, read_name x <> NoFlag).
    { intros x. destruct x as [|y x]; [discriminate|]. cbn [read_name]. destruct (_ || _); [discriminate|]. destruct (cut_eq x). discriminate. }
    destruct (Ascii.eqb e "-"); [destruct s; [discriminate|]|]; exfalso; exact (Q _ E).
Qed.
Lemma read_arg_end s : read_arg s = EndFlags -> s = B "--".
Proof.
  destruct s as [|c [|e s]]; try discriminate. cbn [read_arg].
  assert (Q : forall x, read_name x <> EndFlags).
  { intros x. destruct x as [|y x]; [discriminate|]. cbn [read_name]. destruct (_ || _); [discriminate|]. destruct (cut_eq x). discriminate. }
  destruct (Ascii.eqb_spec c "-") as [->|N]; [|discriminate].
  destruct (Ascii.eqb_spec e "-") as [->|N]; [|intros E; destruct (Q _ E)]. destruct s; [reflexivity|intros E; destruct (Q _ E)].
Qed.
Lemma lookup_cases name : (exists set, lookup name = Some (FString set) /\ In name text_flags)
  \/ (exists set, lookup name = Some (FBool set) /\ In name bool_flags) \/ (lookup name = None /\ ~ In name text_flags /\ ~ In name bool_flags).
Proof.
  unfold lookup, text_flags, bool_flags.
  repeat match goal with
  | |- context [beq name ?b] => let E := fresh in destruct (beq name b) eqn:E;
      [apply beq_eq in E; subst name; first [left; eexists; split; [reflexivity|cbn; tauto]|right; left; eexists; split; [reflexivity|cbn; tauto]]|]
  end.
  right. right. split; [reflexivity|]. cbn [In].
  repeat match goal with E : beq name ?b = false |- _ => assert (name <> b) by (intros ->; rewrite beq_refl in E; discriminate); clear E end.
  split; intros Q; repeat destruct Q as [Q|Q]; congruence.
Qed.
Lemma parse_bool_spec s b : parse_bool s = Some b <-> In s (if b then truths else falsehoods).
Proof.
  unfold parse_bool. fold truths falsehoods.
  assert (E : forall l, existsb (beq s) l = true <-> In s l).
  { intros l. rewrite existsb_exists. split; [intros (x & I1 & E); apply beq_eq in E; subst x; exact I1|intros I1; exists s; split; [exact I1|apply beq_refl]]. }
  assert (D : In s truths -> In s falsehoods -> False) by (cbn; intros H1 H2; repeat destruct H1 as [H1|H1]; subst; cbn in H2; intuition discriminate).
  destruct (existsb (beq s) truths) eqn:E1; [|destruct (existsb (beq s) falsehoods) eqn:E2].
  - apply E in E1. destruct b; split; intros H; try discriminate; auto. exfalso; auto.
  - apply E in E2. destruct b; split; intros H; try discriminate; auto. apply E in H. congruence.
  - split; [discriminate|]. intros H. destruct b; apply E in H; congruence.
Qed.

(** flags, spelled *)
Lemma parse_one name v a l x : spells name v a -> parse_flags (a ++ l) x = parse_flags l (set_one x (name, v)).
Proof.
  intros H.
  assert (Rt : forall d name, In d dashes -> In name text_flags \/ In name bool_flags -> read_arg (d ++ name) = Flag name None
               /\ forall v, read_arg (d ++ name ++ B "=" ++ v) = Flag name (Some v)).
  { clear. intros d name Hd [Hn|Hn]; cbn in Hd, Hn; repeat destruct Hd as [<-|Hd]; try destruct Hd; repeat destruct Hn as [<-|Hn]; try destruct Hn; split; reflexivity. }
  destruct H as [d v Hd Hn|d v Hd Hn|d Hd Hn|d b v Hd Hn Hv]; destruct (Rt d name Hd (ltac:(auto))) as [R1 R2]; cbn [app parse_flags]; unfold set_one; cbn [fst snd].
  - rewrite R1. destruct (lookup_cases name) as [(set & E & _)|[(set & E & I1)|(_ & N & _)]]; [rewrite E; reflexivity| |contradiction].
    exfalso. clear - Hn I1. cbn in *. intuition (subst; discriminate).
  - rewrite (R2 v). destruct (lookup_cases name) as [(set & E & _)|[(set & E & I1)|(_ & N & _)]]; [rewrite E; reflexivity| |contradiction].
    exfalso. clear - Hn I1. cbn in *. intuition (subst; discriminate).
  - rewrite R1. destruct (lookup_cases name) as [(set & E & I1)|[(set & E & _)|(_ & _ & N)]]; [|rewrite E; reflexivity|contradiction].
    exfalso. clear - Hn I1. cbn in *. intuition (subst; discriminate).
  - rewrite (R2 v). destruct (lookup_cases name) as [(set & E & I1)|[(set & E & _)|(_ & _ & N)]]; [| |contradiction].
    + exfalso. clear - Hn I1. cbn in *. intuition (subst; discriminate).
    + rewrite E. apply parse_bool_spec in Hv. rewrite Hv. reflexivity.
Qed.
Lemma parse_gives vs a l x : gives_flags vs a -> parse_flags (a ++ l) x = parse_flags l (set_all vs x).
Proof.
  intros G. revert x. induction G as [|name v a vs l' Sp G IH]; intros x; [reflexivity|].
  rewrite <- app_assoc, (parse_one name v) by exact Sp. rewrite IH. reflexivity.
Qed.
Lemma parse_rest r x : rest_args r -> parse_flags r x = PFlags x.
Proof.
  intros [|s l H|l]; [reflexivity| |reflexivity]. cbn [parse_flags].
  assert (E : read_arg s = NoFlag).
  { destruct H as [->|[->|(c & r' & -> & N)]]; [reflexivity|reflexivity|]. destruct r' as [|d r']; [reflexivity|]. cbn [read_arg].
    destruct (Ascii.eqb_spec c "-"); [contradiction|reflexivity]. }
  rewrite E. reflexivity.
Qed.
(** what the parser does with any command line *)
Inductive shape (args : list bytes) (x : flags) : parsed -> Prop :=
| Sh_flags vs : command vs args -> shape args x (PFlags (set_all vs x))
| Sh_help : asks_help args -> shape args x PHelp
| Sh_bad : (forall vs, ~ command vs args) -> ~ asks_help args -> shape args x PBad.
Lemma parse_shape1 n : forall args x, length args <= n ->
  match parse_flags args x with PFlags y => exists vs, command vs args /\ y = set_all vs x | PHelp => asks_help args | PBad => True end.
Proof.
  induction n as [|n IH]; intros args x L; (destruct args as [|s rest]; [exists []; split; [exists [], []; repeat split; constructor|reflexivity]|]); [cbn [length] in L; lia|].
  cbn [length] in L. cbn [parse_flags].
  assert (One : forall name v a l, spells name v a -> s :: rest = a ++ l -> length l <= n ->
    match parse_flags l (set_one x (name, v)) with PFlags y => exists vs, command vs (s :: rest) /\ y = set_all vs x | PHelp => asks_help (s :: rest) | PBad => True end).
  { intros name v a l Sp E Ll. rewrite E. specialize (IH l (set_one x (name, v)) Ll). destruct (parse_flags l _) as [y| |]; [| |exact I].
    - destruct IH as (vs & (a' & r & -> & G & Re) & ->). exists ((name, v) :: vs). split; [|reflexivity].
      exists (a ++ a'), r. split; [apply app_assoc|]. split; [constructor; assumption|exact Re].
    - destruct IH as (vs & a' & d & e & l' & -> & G & H). exists ((name, v) :: vs), (a ++ a'), d, e, l'.
      split; [apply app_assoc|]. split; [constructor; assumption|exact H]. }
  destruct (read_arg s) as [| | |name value] eqn:Er.
  - exists []. split; [|reflexivity]. exists [], (s :: rest). split; [reflexivity|]. split; [constructor|]. apply Re_plain, read_arg_rest, Er.
  - exists []. split; [|reflexivity]. exists [], (s :: rest). split; [reflexivity|]. split; [constructor|]. apply read_arg_end in Er. subst s. apply Re_end.
  - exact I.
  - apply read_arg_spec in Er as (d & Hd & Es).
    destruct (lookup_cases name) as [(set & E & I1)|[(set & E & I1)|(E & N1 & N2)]]; rewrite E.
    + destruct value as [v|].
      * specialize (One name (VText v) [s] rest). unfold set_one in One. cbn [fst snd] in One. rewrite E in One.
        apply One; [rewrite Es; apply Sp_text; assumption|reflexivity|lia].
      * rewrite app_nil_r in Es. destruct rest as [|v rest]; [exact I|].
        specialize (One name (VText v) [s; v] rest). unfold set_one in One. cbn [fst snd] in One. rewrite E in One.
        apply One; [rewrite Es; apply Sp_next; assumption|reflexivity|cbn [length] in L; lia].
    + destruct value as [v|].
      * destruct (parse_bool v) as [b|] eqn:Eb; [|exact I]. apply parse_bool_spec in Eb.
        specialize (One name (VBool b) [s] rest). unfold set_one in One. cbn [fst snd] in One. rewrite E in One.
        apply One; [rewrite Es; apply Sp_bool; assumption|reflexivity|lia].
      * rewrite app_nil_r in Es. change (parse_bool (B "true")) with (Some true). cbv iota.
        specialize (One name (VBool true) [s] rest). unfold set_one in One. cbn [fst snd] in One. rewrite E in One.
        apply One; [rewrite Es; apply Sp_flag; assumption|reflexivity|lia].
    + destruct (beq name (B "help")) eqn:Eh.
      * apply beq_eq in Eh. subst name. cbn [orb]. exists [], [], d, (match value with Some v => B "=" ++ v | None => [] end), rest.
        split; [rewrite Es; reflexivity|]. split; [constructor|]. split; [exact Hd|]. destruct value as [v|]; [right; exists v; reflexivity|left; reflexivity].
      * cbn [orb]. destruct (beq name (B "h")) eqn:Eh2; [|exact I]. apply beq_eq in Eh2. subst name. exfalso. apply N2. cbn. tauto.
Qed.
Lemma parse_help args x : asks_help args -> parse_flags args x = PHelp.
Proof.
  intros (vs & a & d & e & l & -> & G & Hd & He). rewrite (parse_gives vs) by exact G. cbn [parse_flags].
  assert (E : exists v, read_arg (d ++ B "help" ++ e) = Flag (B "help") v).
  { cbn in Hd. destruct Hd as [<-|[<-|[]]]; (destruct He as [->|(v & ->)]; eexists; reflexivity). }
  destruct E as (v & ->). reflexivity.
Qed.
Lemma parse_command vs args x : command vs args -> parse_flags args x = PFlags (set_all vs x).
Proof. intros (a & r & -> & G & R). rewrite (parse_gives vs) by exact G. apply parse_rest, R. Qed.

(** what the flags mean *)
Definition over (x : flags) (vs : list (bytes * value)) : flags :=
  {| fl_i := text_of (B "i") (fl_i x) vs; fl_left := text_of (B "left") (fl_left x) vs; fl_right := text_of (B "right") (fl_right x) vs;
     fl_k := text_of (B "k") (fl_k x) vs; fl_f := text_of (B "f") (fl_f x) vs; fl_o := text_of (B "o") (fl_o x) vs;
     fl_d := match last_given (B "d") vs with Some (VBool b) => b | _ => fl_d x end;
     fl_v := match last_given (B "v") vs with Some (VBool b) => b | _ => fl_v x end;
     fl_h := match last_given (B "h") vs with Some (VBool b) => b | _ => fl_h x end |}.
Definition typed (nv : bytes * value) : Prop :=
  match snd nv with VText _ => In (fst nv) text_flags | VBool _ => In (fst nv) bool_flags end.
Lemma last_typed vs name w : Forall typed vs -> last_given name vs = Some w -> typed (name, w).
Proof.
  induction 1 as [|[n v] vs T F IH]; cbn [last_given]; [discriminate|]. destruct (last_given name vs) as [w'|]; [exact IH|].
  destruct (beq n name) eqn:E; [|discriminate]. apply beq_eq in E. subst n. intros [= <-]. exact T.
Qed.
Lemma set_all_over vs : Forall typed vs -> forall x, set_all vs x = over x vs.
Proof.
  induction 1 as [|[name v] vs T F IH]; intros x; [destruct x; reflexivity|].
  unfold set_all. cbn [fold_left]. fold (set_all vs (set_one x (name, v))). rewrite IH. unfold over, text_of. cbn [last_given].
  pose proof (fun n w => last_typed vs n w F) as Lt. unfold typed in Lt. cbn [fst snd] in Lt.
  destruct v as [v|b]; cbn in T; repeat destruct T as [<-|T]; try destruct T.
  all: unfold set_one; cbn [fst snd].
  all: match goal with |- context [lookup ?n] => let y := eval cbv in (lookup n) in change (lookup n) with y end.
  all: cbv beta iota; cbn [fl_i fl_left fl_right fl_k fl_f fl_o fl_d fl_v fl_h].
  all: repeat match goal with |- context [beq ?a ?b] => let y := eval vm_compute in (beq a b) in change (beq a b) with y end; cbv iota.
  all: f_equal; repeat match goal with
       | |- context [match ?a with _ => _ end] =>
           lazymatch a with last_given _ _ => let E := fresh in destruct a as [[?|?]|] eqn:E; try reflexivity; exfalso; apply Lt in E; cbn in E; intuition discriminate end
       end; reflexivity.
Qed.

(** ** build settings *)
Lemma setting_last l : forall k v, last_value k l v ->
  (k = B "vcs.revision" -> v_revision (fold_left setting l {| v_revision := []; v_time := []; v_dirty := false |}) = v)
  /\ (k = B "vcs.time" -> v_time (fold_left setting l {| v_revision := []; v_time := []; v_dirty := false |}) = v)
  /\ (k = B "vcs.modified" -> v_dirty (fold_left setting l {| v_revision := []; v_time := []; v_dirty := false |}) = beq v (B "true")).
Proof.
  induction l as [|[k0 v0] l IH] using rev_ind; intros k v L.
  - destruct L as [(a & b & E & _)|[-> _]]; [destruct a; discriminate|]. repeat split.
  - rewrite fold_left_app. cbn [fold_left].
    assert (Q : k0 = k /\ v0 = v \/ k0 <> k /\ last_value k l v).
    { destruct L as [(a & b & E & N)|[-> N]].
      - destruct b as [|x b] using rev_ind.
        + apply app_inj_tail in E as [_ E]. injection E as -> ->. left. split; reflexivity.
        + clear IHb. rewrite app_comm_cons, app_assoc in E. apply app_inj_tail in E as [-> <-]. right. split.
          * intros ->. apply (N v0), in_or_app. right. left. reflexivity.
          * left. exists a, b. split; [reflexivity|]. intros v' I1. apply (N v'), in_or_app. left. exact I1.
      - right. split; [intros ->; apply (N v0), in_or_app; right; left; reflexivity|]. right. split; [reflexivity|].
        intros v' I1. apply (N v'), in_or_app. left. exact I1. }
    destruct Q as [[-> ->]|[Nk L']].
    + repeat split; intros ->; reflexivity.
    + destruct (IH k v L') as (I1 & I2 & I3). unfold setting.
      repeat split; intros ->;
        (destruct (beq k0 (B "vcs.revision")) eqn:E1; [apply beq_eq in E1|destruct (beq k0 (B "vcs.time")) eqn:E2; [apply beq_eq in E2|
         destruct (beq k0 (B "vcs.modified")) eqn:E3; [apply beq_eq in E3|]]]); cbn [v_revision v_time v_dirty]; auto; congruence.
Qed.
