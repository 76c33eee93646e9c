(** Properties of the help text of the command xtemplate in any language: the
    explanations may have several lines and name the value of a flag. *)
From Coq Require Import Lia List ZArith NArith Bool Ascii.
From Verif Require Import GoStr GoStrFacts GoQuote XtModel XtSpec WriteModel MainModel MainSpec MainFacts PropertiesMain XtErrModel XtErrSpec.
From Verif Require Import GoFmt XtErrFacts XtUsageModel XtUsageSpec XtUsageFacts PropertiesXtErr.
Import ListNotations.

(** the parts of a text with [sep] between them *)
Fixpoint between (sep : bytes) (l : list bytes) : bytes :=
  match l with [] => [] | [x] => x | x :: r => x ++ sep ++ between sep r end.
(** each line after the first starts with four blanks and a tab *)
Definition indented (s shown : bytes) : Prop :=
  exists l, l <> [] /\ (forall x, In x l -> ~ In NL x) /\ s = between [NL] l /\ shown = between ([NL] ++ B "    " ++ TAB) l.
(** the name of the value: what the explanation has between its first two back quotes, else [kind] *)
Inductive value_named (kind : bytes) : bytes -> bytes -> bytes -> Prop :=
| VN_quoted a n b : ~ In "`"%char a -> ~ In "`"%char n -> value_named kind (a ++ B "`" ++ n ++ B "`" ++ b) n (a ++ n ++ b)
| VN_single a b : ~ In "`"%char a -> ~ In "`"%char b -> value_named kind (a ++ B "`" ++ b) kind (a ++ B "`" ++ b)
| VN_none a : ~ In "`"%char a -> value_named kind a kind a.
(** the flags: name, kind of value, explanation, default *)
Definition flag_table : list (bytes * bytes * bytes * bytes) :=
  [(B "d", [], B "debug mode", []);
   (B "f", B "string", B "function names of template", []);
   (B "h", [], B "show help message", []);
   (B "i", B "string", B "input file pattern", []);
   (B "k", B "string", B "keywords e.g.: gettext;T:1;N:1,2;X:1c,2;XN:1c,2,3", []);
   (B "left", B "string", B "left delim", B " (default ""{{"")");
   (B "o", B "string", B "output file, - is stdout", []);
   (B "right", B "string", B "right delim", B " (default ""}}"")");
   (B "v", [], B "show version", [])].
Definition help_line (tr : bytes -> bytes) (f : bytes * bytes * bytes * bytes) (line : bytes) : Prop :=
  let '(name, kind, text, default) := f in exists value s shown,
  value_named kind (tr text) value s /\ indented s shown
  /\ ((value <> [] /\ line = B "  -" ++ name ++ B " " ++ value ++ [NL] ++ B "    " ++ TAB ++ shown ++ default ++ [NL])
      \/ (value = [] /\ length name = 1%nat /\ line = B "  -" ++ name ++ TAB ++ shown ++ default ++ [NL])
      \/ (value = [] /\ length name <> 1%nat /\ line = B "  -" ++ name ++ [NL] ++ B "    " ++ TAB ++ shown ++ default ++ [NL])).

Lemma indent_spec s : indented s (indent s).
Proof.
  induction s as [|c s (l & Nl & H & E & E')].
  - exists [[]]. repeat split; [discriminate|]. intros x [<-|[]] [].
  - cbn [indent]. destruct (Ascii.eqb_spec c NL) as [->|N].
    + exists ([] :: l). split; [discriminate|]. split; [intros x [<-|I]; [intros []|exact (H x I)]|].
      destruct l as [|y l]; [congruence|]. rewrite E'. split; [rewrite E; reflexivity|reflexivity].
    + destruct l as [|y l]; [congruence|]. exists ((c :: y) :: l). split; [discriminate|]. split.
      * intros x [<-|I]; [intros [J|J]; [congruence|exact (H y (or_introl eq_refl) J)]|exact (H x (or_intror I))].
      * rewrite E'. split; [rewrite E; destruct l; reflexivity|destruct l; reflexivity].
Qed.
Lemma cut_tick_some s a b : cut_tick s = Some (a, b) -> s = a ++ B "`" ++ b /\ ~ In "`"%char a.
Proof.
  revert a b. induction s as [|c s IH]; intros a b E; cbn [cut_tick] in E; [discriminate|].
  destruct (Ascii.eqb_spec c "`") as [->|N]; [injection E as <- <-; split; [reflexivity|intros []]|].
  destruct (cut_tick s) as [[a' b']|]; [|discriminate]. injection E as <- <-. destruct (IH a' b' eq_refl) as [-> I]. split; [reflexivity|].
  intros [J|J]; [congruence|contradiction].
Qed.
Lemma cut_tick_no s : cut_tick s = None -> ~ In "`"%char s.
Proof.
  induction s as [|c s IH]; intros E; cbn [cut_tick] in E; [intros []|].
  destruct (Ascii.eqb_spec c "`") as [->|N]; [discriminate|]. destruct (cut_tick s) as [[a' b']|]; [discriminate|].
  intros [J|J]; [congruence|exact (IH eq_refl J)].
Qed.
Lemma unquote_spec kind text : value_named kind text (fst (unquote_usage kind text)) (snd (unquote_usage kind text)).
Proof.
  unfold unquote_usage. destruct (cut_tick text) as [[a r]|] eqn:E.
  - apply cut_tick_some in E as [-> Na]. destruct (cut_tick r) as [[n b]|] eqn:E2.
    + apply cut_tick_some in E2 as [-> Nn]. apply VN_quoted; assumption.
    + apply VN_single; [exact Na|apply cut_tick_no, E2].
  - apply VN_none, cut_tick_no, E.
Qed.
Lemma flag_line_spec isp tr name kind text default shown_default : (length name >= 1)%nat ->
  match default with [] => [] | _ => B " (default " ++ quote isp default ++ B ")" end = shown_default ->
  help_line tr (name, kind, text, shown_default) (flag_line isp name kind (tr text) default).
Proof.
  intros Ln Ed. unfold help_line. pose proof (unquote_spec kind (tr text)) as U. unfold flag_line. destruct (unquote_usage kind (tr text)) as [value s].
  cbn [fst snd] in U. exists value, s, (indent s). split; [exact U|]. split; [apply indent_spec|]. cbv zeta. rewrite Ed.
  destruct value as [|v value].
  - right. rewrite app_nil_r. destruct (Nat.eqb_spec (length name) 1) as [E|E]; [left|right]; (split; [reflexivity|]); (split; [exact E|]).
    + destruct (Nat.leb_spec (length (B "  -" ++ name)) 4) as [_|L]; [|rewrite app_length, E in L; cbn in L; lia].
      rewrite <- app_assoc. reflexivity.
    + destruct (Nat.leb_spec (length (B "  -" ++ name)) 4) as [L|_]; [rewrite app_length in L; cbn [length B list_ascii_of_string] in L; lia|].
      rewrite <- !app_assoc. reflexivity.
  - left. split; [discriminate|].
    destruct (Nat.leb_spec (length (B "  -" ++ name ++ B " " ++ v :: value)) 4) as [L|_]; [rewrite !app_length in L; cbn in L; lia|].
    rewrite <- !app_assoc. reflexivity.
Qed.
Lemma defaults_spec isp tr : exists lines, Forall2 (help_line tr) flag_table lines /\ defaults_text isp tr = concat lines.
Proof.
  exists [flag_line isp (B "d") [] (tr (B "debug mode")) [];
    flag_line isp (B "f") (B "string") (tr (B "function names of template")) [];
    flag_line isp (B "h") [] (tr (B "show help message")) [];
    flag_line isp (B "i") (B "string") (tr (B "input file pattern")) [];
    flag_line isp (B "k") (B "string") (tr (B "keywords e.g.: gettext;T:1;N:1,2;X:1c,2;XN:1c,2,3")) [];
    flag_line isp (B "left") (B "string") (tr (B "left delim")) (B "{{");
    flag_line isp (B "o") (B "string") (tr (B "output file, - is stdout")) [];
    flag_line isp (B "right") (B "string") (tr (B "right delim")) (B "}}");
    flag_line isp (B "v") [] (tr (B "show version")) []].
  unfold flag_table. split.
  - repeat (apply Forall2_cons; [apply flag_line_spec; [cbn; lia|reflexivity]|]). apply Forall2_nil.
  - unfold defaults_text. cbn [concat]. rewrite app_nil_r. reflexivity.
Qed.
(** a line is determined by the translations *)
Lemma between_unique sep l : forall l', l <> [] -> l' <> [] -> (forall x, In x l -> ~ In NL x) -> (forall x, In x l' -> ~ In NL x) ->
  between [NL] l = between [NL] l' -> between sep l = between sep l'.
Proof.
  intros l' N N' H H' E. assert (l = l') as ->; [|reflexivity].
  revert l' N' H' E. induction l as [|x l IH]; [congruence|]. intros [|y l'] N' H' E; [congruence|].
  assert (Q : forall a b r r', ~ In NL a -> ~ In NL b -> a ++ NL :: r = b ++ NL :: r' -> a = b /\ r = r').
  { clear. induction a as [|c a IH]; intros [|d b] r r' Ha Hb E; cbn in E; injection E; intros; subst.
    - auto.
    - destruct Hb. left. reflexivity.
    - destruct Ha. left. reflexivity.
    - destruct (IH b r r') as [-> ->]; auto; [intros I; apply Ha; right; exact I|intros I; apply Hb; right; exact I]. }
  assert (Q2 : forall a b r, ~ In NL a -> a = b ++ NL :: r -> False).
  { intros a b r Ha ->. apply Ha, in_or_app. right. left. reflexivity. }
  destruct l as [|x2 l], l' as [|y2 l']; cbn [between] in E.
  - congruence.
  - exfalso. exact (Q2 _ _ _ (H x (or_introl eq_refl)) E).
  - exfalso. exact (Q2 _ _ _ (H' y (or_introl eq_refl)) (eq_sym E)).
  - cbn [app] in E. apply Q in E as [-> E]; [|apply H; left; reflexivity|apply H'; left; reflexivity]. f_equal.
    apply IH; try discriminate; try assumption; intros z I; [apply H|apply H']; right; exact I.
Qed.
Lemma tick_split a b r r' : ~ In "`"%char a -> ~ In "`"%char b -> a ++ B "`" ++ r = b ++ B "`" ++ r' -> a = b /\ r = r'.
Proof.
  revert b. induction a as [|c a IH]; intros [|d b] Ha Hb E; cbn in E; injection E; intros; subst.
  - auto.
  - destruct Hb. left. reflexivity.
  - destruct Ha. left. reflexivity.
  - destruct (IH b) as [-> ->]; auto; [intros I; apply Ha; right; exact I|intros I; apply Hb; right; exact I].
Qed.
Lemma tick_in a r : In "`"%char (a ++ B "`" ++ r).
Proof. apply in_or_app. right. left. reflexivity. Qed.
Lemma value_unique kind t v s v' s' : value_named kind t v s -> value_named kind t v' s' -> v = v' /\ s = s'.
Proof.
  intros H H'. destruct H as [a n b Ha Hn|a b Ha Hb|a Ha]; inversion H' as [a' n' b' Ha' Hn' E|a' b' Ha' Hb' E|a' Ha' E]; subst; try (split; [reflexivity|exact E || exact (eq_sym E) || reflexivity]).
  - apply tick_split in E as [-> E]; [|assumption..]. apply tick_split in E as [-> ->]; auto.
  - apply tick_split in E as [-> ->]; [|assumption..]. destruct Hb'. apply tick_in.
  - destruct Ha'. apply tick_in.
  - apply tick_split in E as [-> E]; [|assumption..]. subst b. destruct Hb. apply tick_in.
  - destruct Ha. apply tick_in.
Qed.
Lemma line_unique tr f x y : help_line tr f x -> help_line tr f y -> x = y.
Proof.
  destruct f as [[[name kind] text] default]. intros (v & s & t & V & (l & N & H & -> & ->) & D) (v' & s' & t' & V' & (l' & N' & H' & -> & ->) & D').
  destruct (value_unique _ _ _ _ _ _ V V') as [<- E]. rewrite (between_unique _ l l' N N' H H' E) in D.
  destruct D as [(P & ->)|[(P & Q & ->)|(P & Q & ->)]], D' as [(P' & ->)|[(P' & Q' & ->)|(P' & Q' & ->)]]; congruence.
Qed.

Section Usage.
Variable isp : N -> bool.
Variable tr : bytes -> bytes.
Variable print : spec -> GoFmt.arg (list bytes) -> bytes.
Variable as_int : GoFmt.arg (list bytes) -> option Z.
Variable extra : list (GoFmt.arg (list bytes)) -> bytes.
Variable open_err read_err : bytes -> bytes.
Variable parse_err : list bytes -> bytes -> bytes -> bytes -> bytes.
Variable write_err : bytes -> bytes.
Variable close_err : bytes.
Variable globs : fs -> bytes -> option (list bytes).
Variable creatable : bytes -> bool.
Variable parses : list bytes -> bytes -> bytes -> bytes -> option (list tnode).
Variable letter number : N -> bool.
Variable written : bytes -> Z * bool.
Variable closes : bool.
Variable version : bytes.
Variable info : option (bytes * list (bytes * bytes)).
Variable prog : bytes.
Notation main_e := (main_e isp tr print as_int extra open_err read_err parse_err write_err close_err globs creatable parses letter number written closes version info
  (usage_text isp tr print as_int extra prog) (complaint_text isp)).
(** ** C87 in every language *)
(** Only the first lines of the help text need a translation with one hole.  Every
    flag has its line; the explanation is shown in full whatever it contains; a name for the
    value between two back quotes takes the place of the kind. *)
Theorem C87_any : keeps tr usage_head -> forall now args w status fs out err, main_e now args w status fs out err -> asks_help args ->
  status = 0 /\ fs = w /\ out = [] /\ exists head lines, says tr usage_head [prog] head /\ Forall2 (help_line tr) flag_table lines /\ err = head ++ concat lines.
Proof.
  intros K now args w status fs out err M H. apply (parse_help args default_flags) in H.
  destruct M as [Q|Q|x Q Ev|x Q Ev Eh|x Q Ev Eh Eb|x o w' out err why Q Ev Eh Ed Eb R]; try congruence.
  split; [reflexivity|]. split; [reflexivity|]. split; [reflexivity|].
  destruct (K _ reads_usage) as (ts & R & L). destruct (defaults_spec isp tr) as (lines & F & E). exists (fill ts [prog]), lines. split; [exists ts; auto|].
  split; [exact F|]. unfold usage_text. change (B "Usage of %s:" ++ NL :: B "xtemplate -i input-pattern -k keywords [-f functions] [-o output]" ++ [NL]) with usage_head.
  rewrite (errorf_reads print as_int extra _ ts [VStr prog] R); [|repeat constructor|exact L]. rewrite E. reflexivity.
Qed.
(** What the lines are is settled by the translations alone. *)
Theorem C87_unique : forall lines lines', Forall2 (help_line tr) flag_table lines -> Forall2 (help_line tr) flag_table lines' -> lines = lines'.
Proof.
  generalize flag_table. intros fs lines lines' F. revert lines'. induction F as [|f x fs lines H F IH]; intros l' F'; inversion F' as [|f' y fs' l2 H' F2]; subst; [reflexivity|].
  f_equal; [exact (line_unique tr f x y H H')|exact (IH _ F2)].
Qed.
End Usage.
Print Assumptions C87_any.
Print Assumptions C87_unique.
(** a translation of two lines which names the value *)
Definition u_tr (m : bytes) : bytes :=
  if beq m (B "input file pattern") then B "the `pattern`:" ++ NL :: B "templates to read" else m.
Example C87_any_case : keeps u_tr usage_head
  /\ help_line u_tr (B "i", B "string", B "input file pattern", [])
       (B "  -i pattern" ++ NL :: B "    " ++ TAB ++ B "the pattern:" ++ NL :: B "    " ++ TAB ++ B "templates to read" ++ [NL])
  /\ help_line u_tr (B "h", [], B "show help message", []) (B "  -h" ++ TAB ++ B "show help message" ++ [NL]).
Proof.
  split; [intros ts R; exists ts; auto|]. split.
  - exists (B "pattern"), (B "the pattern:" ++ NL :: B "templates to read"), (B "the pattern:" ++ NL :: B "    " ++ TAB ++ B "templates to read"). split.
    + apply (VN_quoted _ (B "the ") (B "pattern") (B ":" ++ NL :: B "templates to read")); vm_compute; intuition discriminate.
    + split; [|left; split; [discriminate|reflexivity]]. exists [B "the pattern:"; B "templates to read"]. split; [discriminate|].
      split; [|split; reflexivity]. intros x [<-|[<-|[]]]; vm_compute; intuition discriminate.
  - exists [], (B "show help message"), (B "show help message"). split; [apply VN_none; vm_compute; intuition discriminate|].
    split; [|right; left; repeat split]. exists [B "show help message"]. split; [discriminate|]. split; [|split; reflexivity].
    intros x [<-|[]]; vm_compute; intuition discriminate.
Qed.
