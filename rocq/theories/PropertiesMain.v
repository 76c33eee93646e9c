(** Properties of the command xtemplate. *)
From Coq Require Import Lia ZArith.
From Verif Require Import GoStr GoStrFacts GoMap FileModel PoModel PoSpec BlankSpec BlankFacts PoGramSpec XtModel WriteModel WriteSpec WriteFacts MainModel MainSpec MainFacts PropertiesGram PoCatalogFacts.

(** ** C72: the command line *)
Section C72.
Variable isp : N -> bool.
Variable globs : fs -> bytes -> option (list bytes).
Variable creatable : bytes -> bool.
Variable parses : list bytes -> bytes -> bytes -> bytes -> option (list tnode).
Variable letter number : N -> bool.
Variable written : bytes -> Z * bool.
Variable closes : bool.
Variable version : bytes.
Variable info : option (bytes * list (bytes * bytes)).
Notation main := (main isp globs creatable parses letter number written closes version info).
Notation runs := (runs_io isp globs creatable parses letter number written closes).
Lemma gives_typed vs a : gives_flags vs a -> Forall typed vs.
Proof. induction 1 as [|name v a vs l Sp G IH]; constructor; [|exact IH]. destruct Sp; assumption. Qed.
Lemma parse_meant vs args : command vs args -> parse_flags args default_flags = PFlags (meant vs).
Proof.
  intros C. rewrite (parse_command vs args _ C). destruct C as (a & r & _ & G & _).
  rewrite set_all_over by exact (gives_typed _ _ G). reflexivity.
Qed.
(** A run extracts with exactly the values given, the last of each flag, in
    whatever way they are written, and its exit status says whether it succeeded. *)
Theorem C72_run : forall now args vs w code w' out, command vs args ->
  bool_of (B "v") vs = false -> bool_of (B "h") vs = false ->
  trim_space (text_of (B "i") [] vs) <> [] -> trim_space (text_of (B "k") [] vs) <> [] ->
  main now args w code w' out <->
  exists o text dbg,
    runs now {| p_input := text_of (B "i") [] vs; p_left := text_of (B "left") (B "{{") vs; p_right := text_of (B "right") (B "}}") vs;
                p_keyword := text_of (B "k") [] vs; p_function := text_of (B "f") [] vs; p_output := text_of (B "o") [] vs |} w o w' text
    /\ out = dbg ++ text /\ (bool_of (B "d") vs = false -> dbg = []) /\ (bool_of (B "d") vs = true -> starts (B "run param=") dbg)
    /\ (o = ROk /\ code = 0 \/ o <> ROk /\ code = 2).
Proof.
  intros now args vs w code w' out C Hv Hh Hi Hk. pose proof (parse_meant vs args C) as P.
  assert (Q : blank_text (fl_i (meant vs)) || blank_text (fl_k (meant vs)) = false).
  { cbn [meant fl_i fl_k]. unfold blank_text. destruct (trim_space (text_of (B "i") [] vs)); [congruence|].
    destruct (trim_space (text_of (B "k") [] vs)); [congruence|reflexivity]. }
  split.
  - intros M. destruct M as [E|E|x E Ev|x E Ev Eh|x E Ev Eh Eb|x o w' out dbg E Ev Eh Eb R D]; rewrite P in E; try discriminate; injection E as <-.
    + cbn [meant fl_v] in Ev. congruence.
    + cbn [meant fl_h] in Eh. congruence.
    + congruence.
    + exists o, out, dbg. split; [exact R|]. split; [reflexivity|]. unfold debug_text in D. cbn [meant fl_d] in D.
      split; [intros Q'; rewrite Q' in D; exact D|]. split; [intros Q'; rewrite Q' in D; destruct D as (m & ->); exists m; reflexivity|].
      destruct o; [left; split; reflexivity|right; split; [discriminate|reflexivity]..].
  - intros (o & text & dbg & R & -> & D1 & D2 & Cd).
    replace code with (match o with ROk => 0 | RFail | RPanic => 2 end) by (destruct o; destruct Cd as [[? ?]|[? ?]]; congruence).
    apply M_run with (x := meant vs); [exact P|exact Hv|exact Hh|exact Q|exact R|].
    unfold debug_text. cbn [meant fl_d]. destruct (bool_of (B "d") vs); [destruct (D2 eq_refl) as (m & ->); exists m; reflexivity|exact (D1 eq_refl)].
Qed.
(** [-v] prints the version, [-h] the usage; without [-i] or [-k] it is an error;
    no file is touched. *)
Theorem C72_stops : forall now args vs w code w' out, command vs args -> main now args w code w' out ->
  (bool_of (B "v") vs = true -> code = 0 /\ w' = w /\ out = version_page ++ version_string version info ++ [NL])
  /\ (bool_of (B "v") vs = false -> bool_of (B "h") vs = true -> code = 0 /\ w' = w /\ out = [])
  /\ (bool_of (B "v") vs = false -> bool_of (B "h") vs = false ->
      trim_space (text_of (B "i") [] vs) = [] \/ trim_space (text_of (B "k") [] vs) = [] -> code = 2 /\ w' = w /\ out = []).
Proof.
  intros now args vs w code w' out C M. pose proof (parse_meant vs args C) as P.
  assert (Q : trim_space (text_of (B "i") [] vs) = [] \/ trim_space (text_of (B "k") [] vs) = [] ->
    blank_text (fl_i (meant vs)) || blank_text (fl_k (meant vs)) = true).
  { cbn [meant fl_i fl_k]. unfold blank_text. intros [-> | ->]; [reflexivity|]. destruct (is_empty _); reflexivity. }
  destruct M as [E|E|x E Ev|x E Ev Eh|x E Ev Eh Eb|x o w' out dbg E Ev Eh Eb R D]; rewrite P in E; try discriminate; injection E as <-;
    cbn [meant fl_v fl_h] in *; repeat split; intros; try congruence; rewrite Q in Eb by assumption; discriminate.
Qed.
(** Everything else on the command line is an error, except that [-help] asks for
    the usage. *)
Theorem C72_syntax : forall now args w code w' out, (forall vs, ~ command vs args) -> main now args w code w' out ->
  w' = w /\ out = [] /\ (asks_help args -> code = 0) /\ (~ asks_help args -> code = 2).
Proof.
  intros now args w code w' out N M. pose proof (parse_shape1 (length args) args default_flags (le_n _)) as Sh.
  destruct M as [E|E|x E Ev|x E Ev Eh|x E Ev Eh Eb|x o w' out dbg E Ev Eh Eb R D]; rewrite E in Sh;
    try (destruct Sh as (vs & C & _); exfalso; exact (N vs C)).
  - repeat split. intros H. apply (parse_help args default_flags) in H. congruence.
  - repeat split. intros H. contradiction.
Qed.
(** a command line means one thing *)
Theorem C72_unique : forall args vs vs', command vs args ->
  (command vs' args -> meant vs = meant vs') /\ ~ asks_help args.
Proof.
  intros args vs vs' C. apply parse_meant in C as E. split.
  - intros C'. apply parse_meant in C'. congruence.
  - intros H. apply (parse_help args default_flags) in H. congruence.
Qed.
End C72.
Print Assumptions C72_run. Print Assumptions C72_stops. Print Assumptions C72_syntax. Print Assumptions C72_unique.
(** the version shown: the one set at link time, else the one of the module, else
    the revision (twelve bytes), whether it was modified, and its time *)
Theorem C72_version : forall version main settings rev time modified,
  last_value (B "vcs.revision") settings rev -> last_value (B "vcs.time") settings time -> last_value (B "vcs.modified") settings modified ->
  let shown := version_string version (Some (main, settings)) in
  (version <> [] -> version <> B "dev" -> shown = version)
  /\ (version = [] \/ version = B "dev" ->
      (main <> [] -> main <> B "(devel)" -> shown = main)
      /\ (main = [] \/ main = B "(devel)" ->
          (rev = [] -> shown = B "dev")
          /\ (rev <> [] -> shown = firstn 12 rev ++ (if beq modified (B "true") then B "-dirty" else []) ++ (match time with [] => [] | _ => B "-" ++ time end)))).
Proof.
  intros version main settings rev time modified Hr Ht Hm. cbn zeta. unfold version_string.
  destruct (setting_last _ _ _ Hr) as (Er & _ & _). destruct (setting_last _ _ _ Ht) as (_ & Et & _). destruct (setting_last _ _ _ Hm) as (_ & _ & Em).
  specialize (Er eq_refl). specialize (Et eq_refl). specialize (Em eq_refl). cbn zeta. rewrite Er, Et, Em.
  split.
  - intros N1 N2. apply beq_neq in N2. unfold dev. rewrite N2. destruct version; [congruence|reflexivity].
  - intros Hv. replace (negb (is_empty version) && negb (beq version dev)) with false by (destruct Hv as [-> | ->]; reflexivity). split.
    + intros N1 N2. apply beq_neq in N2. rewrite N2. destruct main; [congruence|reflexivity].
    + intros Hn. replace (negb (is_empty main) && negb (beq main (B "(devel)"))) with false by (destruct Hn as [-> | ->]; reflexivity). split.
      * intros ->. reflexivity.
      * intros N. destruct rev as [|c rev]; [congruence|]. destruct (beq modified (B "true")), time; cbn [app join]; rewrite ?app_nil_r; reflexivity.
Qed.
Print Assumptions C72_version.
Example C72_version_example : version_string (B "dev") (Some (B "(devel)", [(B "vcs.revision", B "0123456789abcdef"); (B "vcs.modified", B "true"); (B "GOOS", B "linux"); (B "vcs.time", B "2024")]))
  = B "0123456789ab-dirty-2024".
Proof. reflexivity. Qed.

(** in debug mode the standard output is no .po file *)
Lemma not_blanks s : ~ blanks ("r"%char :: s).
Proof.
  intros H. pose proof (trim_left_blanks (S (length s)) _ [] H) as T. rewrite app_nil_r in T.
  assert (E : trim_left_fuel (S (length s)) ("r"%char :: s) = "r"%char :: s) by reflexivity.
  rewrite E in T. discriminate T; [cbn [length]; lia|]. intros w t (r & _ & ->) Q. 
  destruct (encode_rune r) as [|c e] eqn:Er; [|discriminate Q]. revert Er. unfold encode_rune. repeat destruct (_ <? _)%N; repeat destruct (_ && _); discriminate.
Qed.
Theorem C72_debug : forall isp globs creatable parses letter number written closes version info now args vs w code w' out,
  command vs args -> bool_of (B "v") vs = false -> bool_of (B "h") vs = false -> bool_of (B "d") vs = true ->
  trim_space (text_of (B "i") [] vs) <> [] -> trim_space (text_of (B "k") [] vs) <> [] ->
  main isp globs creatable parses letter number written closes version info now args w code w' out -> read_po out = PoErr.
Proof.
  intros isp globs creatable parses letter number written closes version info now args vs w code w' out C Hv Hh Hd Hi Hk M.
  apply (C72_run _ _ _ _ _ _ _ _ _ _ _ _ _ _ _ _ _ C Hv Hh Hi Hk) in M as (o & text & dbg & _ & -> & _ & D & _).
  destruct (D Hd) as (m & ->). rewrite <- app_assoc. set (r := m ++ text).
  assert (Q : exists a b, file_lines (B "run param=" ++ r) = (B "run param=" ++ a) :: b).
  { unfold file_lines. rewrite filter_app. cbn [B filter Ascii.eqb Bool.eqb negb app]. 
    generalize (filter (fun x => negb (Ascii.eqb x CR)) r) as t. intros t.
    change (exists a b, split_byte NL (B "run param=" ++ t) = (B "run param=" ++ a) :: b).
    destruct (split_byte NL t) as [|h b] eqn:E.
    - destruct t as [|c t]; [discriminate|]. cbn [split_byte] in E. destruct (Ascii.eqb c NL); [discriminate|]. destruct (split_byte NL t); discriminate.
    - exists h, b. cbn. rewrite E. reflexivity. }
  destruct Q as (a & b & Q). apply (C62_other_lines _ (B "run param=" ++ a)); [rewrite Q; left; reflexivity|].
  intros [H|[(t & H)|[(t & (t' & H) & _)|(k & s & t & H & _ & [Hk'|(i & Hk')])]]].
  - exact (not_blanks _ H).
  - discriminate H.
  - discriminate H.
  - cbn in Hk'. repeat destruct Hk' as [<-|Hk']; try discriminate H; try destruct Hk'.
  - subst k. discriminate H.
Qed.
Print Assumptions C72_debug.
(** the full statement fails: a successful extraction to standard output need not
    be a .po file *)
Definition ex_args : list bytes := [B "-i"; B "*.tmpl"; B "--k=T;N:1,2"; B "-left"; B "[["; B "-d"; B "-left=<<"; B "extra"; B "-o"; B "x"].
Definition ex_given : list (bytes * value) :=
  [(B "i", VText (B "*.tmpl")); (B "k", VText (B "T;N:1,2")); (B "left", VText (B "[[")); (B "d", VBool true); (B "left", VText (B "<<"))].
Lemma ex_command : command ex_given ex_args.
Proof.
  exists (firstn 7 ex_args), (skipn 7 ex_args). split; [reflexivity|]. split.
  - change (firstn 7 ex_args) with ([B "-" ++ B "i"; B "*.tmpl"] ++ [B "--" ++ B "k" ++ B "=" ++ B "T;N:1,2"] ++ [B "-" ++ B "left"; B "[["] ++ [B "-" ++ B "d"] ++ [B "-" ++ B "left" ++ B "=" ++ B "<<"] ++ []).
    repeat apply Gi_flag; [apply Sp_next|apply Sp_text|apply Sp_next|apply Sp_flag|apply Sp_text|apply Gi_nil]; cbn; tauto.
  - apply Re_plain. right. right. eexists _, _. split; [reflexivity|discriminate].
Qed.
Example C72_example : command ex_given ex_args /\ bool_of (B "v") ex_given = false /\ bool_of (B "h") ex_given = false
  /\ trim_space (text_of (B "i") [] ex_given) <> [] /\ trim_space (text_of (B "k") [] ex_given) <> []
  /\ text_of (B "left") (B "{{") ex_given = B "<<" /\ text_of (B "o") [] ex_given = [].
Proof. split; [exact ex_command|]. repeat split; vm_compute; congruence. Qed.
Example C72_syntax_example : asks_help [B "-d"; B "--help=x"; B "-zzz"] /\ (forall vs, ~ command vs [B "-i"]) /\ ~ asks_help [B "-i"].
Proof.
  assert (P : parse_flags [B "-i"] default_flags = PBad) by reflexivity. split; [|split].
  - exists [(B "d", VBool true)], [B "-d"], (B "--"), (B "=x"), [B "-zzz"]. split; [reflexivity|].
    split; [change [B "-d"] with ([B "-" ++ B "d"] ++ []); apply Gi_flag; [apply Sp_flag; cbn; tauto|apply Gi_nil]|].
    split; [cbn; tauto|]. right. exists (B "x"). reflexivity.
  - intros vs C. apply (parse_command vs _ default_flags) in C. congruence.
  - intros H. apply (parse_help _ default_flags) in H. congruence.
Qed.
Theorem C72_debug_refuted : exists isp globs creatable parses letter number written closes version info now args w w' out,
  main isp globs creatable parses letter number written closes version info now args w 0 w' out /\ read_po out = PoErr.
Proof.
  pose (x := meant ex_given). pose (f := add_entry new_file (header_entry [] (to_param x) false)).
  destruct (proj2 (PoCatalogFacts.saves_exist (fun _ => false) f)) as (out & So).
  pose (wr := fun b : bytes => (Z.of_nat (length b), false)).
  assert (M : main (fun _ => false) (fun _ _ => Some []) (fun _ => true) (fun _ _ _ _ => None) (fun _ => false) (fun _ => false) wr true [] None [] ex_args
    (fun _ => None) 0 (fun _ => None) (B "run param=" ++ out)).
  { apply (C72_run _ _ _ _ _ _ _ _ _ _ _ _ _ _ _ _ _ ex_command eq_refl eq_refl ltac:(vm_compute; congruence) ltac:(vm_compute; congruence)).
    exists ROk, out, (B "run param="). split; [|split; [reflexivity|]; split; [discriminate|]; split; [intros _; exists []; reflexivity|left; split; reflexivity]].
    assert (R : runs (fun _ => false) (fun _ _ => Some []) (fun _ => true) (fun _ _ _ _ => None) (fun _ => false) (fun _ => false) [] (to_param x) (fun _ => None) ROk (fun _ => None) out).
    { change (fun _ : bytes => @None bytes) with (if to_file (to_param x) then fs_set (fun _ => None) (p_output (to_param x)) out else (fun _ => @None bytes)) at 2.
      change out with (if to_file (to_param x) then [] else out) at 2.
      eapply R_done; [vm_compute; reflexivity|right; split; reflexivity|reflexivity|reflexivity| |exact So].
      exists []. split; [constructor|reflexivity]. }
    pose proof (IO_write (fun _ => false) (fun _ _ => Some []) (fun _ => true) (fun _ _ _ _ => None) (fun _ => false) (fun _ => false) wr true [] (to_param x)
      (fun _ => None) (fun _ => None) out out SNil out R (or_intror (conj eq_refl eq_refl)) (write_to_faultless wr out (fun b => eq_refl))) as Q.
    exact Q. }
  do 15 eexists. split; [exact M|]. eapply (C72_debug _ _ _ _ _ _ _ _ _ _ _ _ _ _ _ _ _ ex_command); [reflexivity|reflexivity|reflexivity|vm_compute; congruence|vm_compute; congruence|exact M].
Qed.
Print Assumptions C72_debug_refuted.
