(** Specifications for xtemplate, independent of the functions of XtModel. *)
From Verif Require Import GoStr GoMap FileModel PoModel BlankSpec XtModel.
Local Open Scope Z_scope.

(** ** Keyword specifications *)
(** a decimal number in the range of int64, possibly with a sign *)
Definition decimal (ds : bytes) : Z := fold_left (fun v c => 10 * v + (Z.of_N (code c) - 48)) ds 0.
Definition numeral (s : bytes) (z : Z) : Prop :=
  exists ds, ds <> [] /\ (forall c, In c ds -> (48 <= code c <= 57)%N)
    /\ (s = ds /\ z = decimal ds \/ s = B "+" ++ ds /\ z = decimal ds \/ s = B "-" ++ ds /\ z = - decimal ds)
    /\ - 2 ^ 63 <= z < 2 ^ 63.
(** what may stand behind the colon: i / i,j / cc,i / cc,i,j *)
Inductive positions : list bytes -> Z -> Z -> Z -> Prop :=
| P_id a i : numeral a i -> positions [a] 0 i 0
| P_plural a b i j : numeral a i -> numeral b j -> positions [a; b] 0 i j
| P_ctxt a b c i : numeral a c -> numeral b i -> positions [a ++ B "c"; b] c i 0
| P_both a b d c i j : numeral a c -> numeral b i -> numeral d j -> positions [a ++ B "c"; b; d] c i j.
(** one keyword; every part may have white space around it *)
Inductive spells1 : bytes -> keyword -> Prop :=
| SP_name t n : trims t n -> n <> [] -> ~ In ":"%char t -> spells1 t (kw n 0 1 0)
| SP_positions tn n ts xs c i j : trims tn n -> n <> [] -> ~ In ":"%char tn ->
    Forall2 trims ts xs -> positions xs c i j -> spells1 (tn ++ B ":" ++ join (B ",") ts) (kw n c i j).
(** a list of keywords *)
Definition spells (s : bytes) (ks : list keyword) : Prop :=
  exists ts, ts <> [] /\ s = join (B ";") ts /\ (forall t, In t ts -> ~ In ";"%char t) /\ Forall2 spells1 ts ks.

(** ** Calls in templates *)
(** string literals, possibly in parentheses *)
Inductive literal : anode -> bytes -> Prop :=
| L_str s : literal (AStr s) s
| L_paren a s : literal a s -> literal (APipe [[a]]) s.
(** the name under which an argument is called: f, .x.f, $x.f, (...).f *)
Inductive named : anode -> bytes -> Prop :=
| N_ident n : named (AIdent n) n
| N_field l n : named (AField (l ++ [n])) n
| N_var l n : named (AVar (l ++ [n])) n
| N_chain a l n : named (AChain a (l ++ [n])) n.
(** the arguments of command [j] of a pipeline, with the literal piped into it *)
Inductive arguments (p : pipe) (j : nat) : list anode -> Prop :=
| A_piped j' cmd a s : j = S j' -> nth_error p j' = Some [a] -> literal a s -> nth_error p j = Some cmd -> arguments p j (cmd ++ [a])
| A_plain cmd : (forall j' a s, j = S j' -> nth_error p j' = Some [a] -> ~ literal a s) -> nth_error p j = Some cmd -> arguments p j cmd.
(** The arguments in a pipeline and in the parentheses in it: [in_pipe p o args n] says that at
    place [o] there is argument [n] of a command with arguments [args].  A place is a path of
    indices; [before] is the order of places in the text. *)
Inductive in_pipe : pipe -> list nat -> list anode -> nat -> Prop :=
| IP_here p j args n : arguments p j args -> (n < length args)%nat -> in_pipe p [j; n] args n
| IP_paren p j cmd i inner o args n : nth_error p j = Some cmd -> nth_error cmd i = Some (APipe inner) ->
    in_pipe inner o args n -> in_pipe p (j :: i :: o) args n.
Inductive before : list nat -> list nat -> Prop :=
| BE_head i j a b : (i < j)%nat -> before (i :: a) (j :: b)
| BE_tail i a b : before a b -> before (i :: a) (i :: b).
(** as [in_pipe], also for parentheses a field is taken of, as in (f x).y *)
Inductive in_pipe_all : pipe -> list anode -> nat -> Prop :=
| IPA_here p j args n : arguments p j args -> (n < length args)%nat -> in_pipe_all p args n
| IPA_paren p cmd inner args n : In cmd p -> In (APipe inner) cmd -> in_pipe_all inner args n -> in_pipe_all p args n
| IPA_chain p cmd inner fields args n : In cmd p -> In (AChain (APipe inner) fields) cmd -> in_pipe_all inner args n -> in_pipe_all p args n.
(** the pipelines in a template, with their places and lines *)
Inductive in_node : tnode -> list nat -> Z -> pipe -> Prop :=
| IN_list nodes i t o l p : nth_error nodes i = Some t -> in_node t o l p -> in_node (TList nodes) (i :: o) l p
| IN_action l p : in_node (TAction l p) [0%nat] l p
| IN_if l p b e : in_node (TIf l p b e) [0%nat] l p
| IN_if_body l p b e o l' p' : in_node b o l' p' -> in_node (TIf l p b e) (1%nat :: o) l' p'
| IN_if_else l p b e o l' p' : in_node e o l' p' -> in_node (TIf l p b (Some e)) (2%nat :: o) l' p'
| IN_range l p b e : in_node (TRange l p b e) [0%nat] l p
| IN_range_body l p b e o l' p' : in_node b o l' p' -> in_node (TRange l p b e) (1%nat :: o) l' p'
| IN_range_else l p b e o l' p' : in_node e o l' p' -> in_node (TRange l p b (Some e)) (2%nat :: o) l' p'
| IN_with l p b e : in_node (TWith l p b e) [0%nat] l p
| IN_with_body l p b e o l' p' : in_node b o l' p' -> in_node (TWith l p b e) (1%nat :: o) l' p'
| IN_with_else l p b e o l' p' : in_node e o l' p' -> in_node (TWith l p b (Some e)) (2%nat :: o) l' p'
| IN_template l p : in_node (TTemplate l (Some p)) [0%nat] l p.
(** [text_at args n p s]: the [p]-th argument of the function named at [n] is the literal [s] *)
Definition text_at (args : list anode) (n : nat) (p : Z) (s : bytes) : Prop :=
  0 < p /\ exists a, nth_error args (n + Z.to_nat p) = Some a /\ literal a s.
(** [describes line k args n e]: [e] is the message of a call of [k] *)
Record describes (line : bytes) (k : keyword) (args : list anode) (n : nat) (e : entry) : Prop := {
  d_ctxt : if 0 <? k_ctxt k then text_at args n (k_ctxt k) (e_ctxt e) else e_ctxt e = [];
  d_id : text_at args n (k_id k) (e_id e);
  d_id2 : if 0 <? k_id2 k then text_at args n (k_id2 k) (e_id2 e) else e_id2 e = [];
  d_plural : e_plural e = (0 <? k_id2 k);
  d_cmts : (In "%"%char (e_id e) \/ In "%"%char (e_id2 e)) /\ e_cmts e = [B "#: " ++ line; B "#, go-format"]
           \/ ~ In "%"%char (e_id e) /\ ~ In "%"%char (e_id2 e) /\ e_cmts e = [B "#: " ++ line];
  d_str : e_str e = [] /\ e_strn e = [] }.
(** the positions a keyword declares *)
Definition declared (k : keyword) (p : Z) : Prop := 0 < p /\ (p = k_ctxt k \/ p = k_id k \/ p = k_id2 k).
(** the declared positions are 1, 2, ... without a gap *)
Definition gapless (k : keyword) : Prop := forall p q, declared k p -> 1 <= q <= p -> declared k q.
(** [calls line k args n e]: argument [n] of [args] calls [k], with message [e] *)
Definition calls (line : bytes) (k : keyword) (args : list anode) (n : nat) (e : entry) : Prop :=
  (exists a, nth_error args n = Some a /\ named a (k_name k)) /\ describes line k args n e.
(** how a line is referred to *)
Definition ref (file : bytes) (line : Z) : bytes := file ++ B ":" ++ dec_Z line.
(** [message file kws t o k e]: template [t] at place [o] calls keyword [k] of [kws] with message [e];
    the last index of [o] is that of the keyword *)
Definition message (file : bytes) (kws : list keyword) (t : tnode) (o : list nat) (k : keyword) (e : entry) : Prop :=
  exists o1 o2 i line p args n, o = o1 ++ o2 ++ [i] /\ in_node t o1 line p /\ in_pipe p o2 args n
    /\ nth_error kws i = Some k /\ calls (ref file line) k args n e.
Definition message_all (file : bytes) (kws : list keyword) (t : tnode) (k : keyword) (e : entry) : Prop :=
  exists o line p args n, in_node t o line p /\ in_pipe_all p args n /\ In k kws /\ calls (ref file line) k args n e.

(** ** Merging *)
(** the first element of [l] with key [k] *)
Definition first_with (l : list entry) (k : bytes) (e : entry) : Prop :=
  exists a b, l = a ++ e :: b /\ e_key e = k /\ forall x, In x a -> e_key x <> k.
Definition with_cmts (e : entry) (cs : list bytes) : entry :=
  {| e_cmts := cs; e_ctxt := e_ctxt e; e_id := e_id e; e_plural := e_plural e; e_id2 := e_id2 e;
     e_str := e_str e; e_strn := e_strn e |}.
(** the elements of [l] that agree with [e] in key and plurality *)
Definition alike (e : entry) (l : list entry) : list entry :=
  filter (fun x => beq (e_key x) (e_key e) && Bool.eqb (e_plural x) (e_plural e)) l.
(** [x] disagrees in plurality with the first element of [l] with its key *)
Definition conflicts (l : list entry) (x : entry) : Prop :=
  exists e, first_with l (e_key x) e /\ e_plural e <> e_plural x.

(** the merged message with key [k]: its first occurrence with the comments of all alike *)
Definition merged (l : list entry) (k : bytes) (m : entry) : Prop :=
  exists e, first_with l k e /\ m = with_cmts e (concat (map e_cmts (alike e l))).
(** the elements of a list with a property, in order *)
Inductive picked {X} (P : X -> Prop) : list X -> list X -> Prop :=
| PK_nil : picked P [] []
| PK_yes x l m : P x -> picked P l m -> picked P (x :: l) (x :: m)
| PK_no x l m : ~ P x -> picked P l m -> picked P (x :: l) m.

(** ** Identifiers *)
Definition alpha (c : ascii) : Prop := (97 <= code c <= 122 \/ 65 <= code c <= 90)%N \/ c = "_"%char.
Definition wordchar (c : ascii) : Prop := alpha c \/ (48 <= code c <= 57)%N.
Definition identifier (s : bytes) : Prop := exists c t, s = c :: t /\ alpha c /\ forall x, In x t -> wordchar x.
(** [name] stands in [src], not inside a longer word *)
Definition stands_in (src name : bytes) : Prop :=
  exists a b, src = a ++ name ++ b
    /\ (forall x c, a = x ++ [c] -> ~ wordchar c) /\ (forall c x, b = c :: x -> ~ wordchar c).
(** ... but digits may be glued to its front *)
Definition ends_word (a : bytes) : Prop := exists x c, a = x ++ [c] /\ wordchar c.
Definition found_in (src name : bytes) : Prop :=
  exists a ds b, src = a ++ ds ++ name ++ b /\ ~ ends_word a
    /\ (forall c, In c ds -> (48 <= code c <= 57)%N) /\ (forall c x, b = c :: x -> ~ wordchar c).
(** the words of the template language *)
Definition template_word (s : bytes) : Prop :=
  In s (split_byte SP (B "block break continue define else end if range template with")).
(** Go identifiers; [letter] and [number] tell the letters and digits above ASCII *)
Definition go_letter (letter : N -> bool) (r : N) : Prop :=
  (97 <= r <= 122 \/ 65 <= r <= 90)%N \/ r = 95%N \/ (128 <= r)%N /\ letter r = true.
Definition go_number (number : N -> bool) (r : N) : Prop := (48 <= r <= 57)%N \/ (128 <= r)%N /\ number r = true.
Definition go_identifier (letter number : N -> bool) (s : bytes) : Prop :=
  exists r rs, s = concat (map encode_rune (r :: rs)) /\ (forall x, In x (r :: rs) -> valid_rune x = true)
    /\ go_letter letter r /\ forall x, In x rs -> go_letter letter x \/ go_number number x.

(** ** Running *)
(** the functions a user defines by a comma-separated list *)
Definition lists_name (s n : bytes) : Prop :=
  n <> [] /\ exists ts t, s = join (B ",") ts /\ (forall x, In x ts -> ~ In ","%char x) /\ In t ts /\ trims t n.
(** the file is not standard output *)
Definition is_file (name : bytes) : Prop := name <> [] /\ name <> B "-".
(** the file system while the files are read: the output is already open *)
Definition opened (p : param) (w : fs) : fs := if to_file p then fs_set w (p_output p) [] else w.
(** the text a run produces *)
Definition produced (p : param) (w' : fs) (out : bytes) (text : bytes) : Prop :=
  is_file (p_output p) /\ w' (p_output p) = Some text \/ ~ is_file (p_output p) /\ text = out.
Definition clean_names (files : list bytes) : Prop := forall n, In n files -> ~ In NL n /\ ~ In CR n.
Section Files.
Variable parses : list bytes -> bytes -> bytes -> bytes -> option (list tnode).
Variable p : param.
Variable names : list bytes.
Variable w : fs.
(** the templates in a file; [names] are the functions known beforehand *)
Definition trees (n : bytes) : list tnode :=
  match w n with
  | Some src => match parses (names ++ scan_func_names src) (p_left p) (p_right p) src with Some t => t | None => [] end
  | None => []
  end.
(** the messages of a list of files, for keywords without a gap *)
Definition found (kws : list keyword) (files : list bytes) (o : list nat) (e : entry) : Prop :=
  exists i n j t o' k, o = i :: j :: o' /\ nth_error files i = Some n /\ nth_error (trees n) j = Some t
    /\ message n kws t o' k e /\ gapless k.
End Files.
