(** What debug mode of xtemplate shows.  Independent of the functions of XtDebugModel. *)
From Coq Require Import List ZArith NArith Bool Ascii Sorted.
From Verif Require Import GoStr GoMap FileModel PoModel XtModel XtSpec XtErrSpec XtDebugModel.
Import ListNotations.
Local Open Scope Z_scope.

(** ** What is said about one use of a keyword *)
(** how many arguments behind the name are looked at: as many as there are different positions *)
Definition needed (k : keyword) : nat := length (nodup Z.eq_dec (k_id k :: filter (Z.ltb 0) [k_ctxt k; k_id2 k])).
(** the arguments [n + 1] to [m] are literals *)
Definition texts_to (args : list anode) (n m : nat) : Prop :=
  forall i, (n < i <= m)%nat -> exists a s, nth_error args i = Some a /\ literal a s.
Definition within (k : keyword) (p : Z) : Prop := p <= Z.of_nat (needed k).
(** [verdict line k args n d]: argument [n] of [args] is the name of keyword [k]; [d] is said *)
Inductive verdict (line : bytes) (k : keyword) (args : list anode) (n : nat) : dline -> Prop :=
| V_few : (length args <= n + needed k)%nat -> verdict line k args n (DFew (k_name k))
| V_no_string i a : (n + needed k < length args)%nat -> (n < i <= n + needed k)%nat -> texts_to args n (i - 1) ->
    nth_error args i = Some a -> (forall s, ~ literal a s) -> verdict line k args n (DNoString (k_name k) i)
| V_no_ctxt : texts_to args n (n + needed k) -> ~ within k (k_ctxt k) -> verdict line k args n (DNoCtxt (k_name k))
| V_no_id : texts_to args n (n + needed k) -> within k (k_ctxt k) -> ~ (0 < k_id k /\ within k (k_id k)) ->
    verdict line k args n (DNoId (k_name k))
| V_no_plural : texts_to args n (n + needed k) -> within k (k_ctxt k) -> 0 < k_id k -> within k (k_id k) -> ~ within k (k_id2 k) ->
    verdict line k args n (DNoPlural (k_name k))
| V_ok e : gapless k -> describes line k args n e -> verdict line k args n (DOk (k_name k) e).

(** ** The whole log of a template *)
(** pipelines in parentheses, with their places *)
Inductive inside : pipe -> list nat -> pipe -> Prop :=
| IS_here p : inside p [] p
| IS_paren p j args n inner o q : arguments p j args -> nth_error args n = Some (APipe inner) -> inside inner o q -> inside p (j :: n :: o) q.
(** calls of other templates without data *)
Inductive bare : tnode -> list nat -> Z -> Prop :=
| BA_here l : bare (TTemplate l None) [0%nat] l
| BA_list nodes i t o l : nth_error nodes i = Some t -> bare t o l -> bare (TList nodes) (i :: o) l
| BA_if l p b e o l' : bare b o l' -> bare (TIf l p b e) (1%nat :: o) l'
| BA_if_else l p b e o l' : bare e o l' -> bare (TIf l p b (Some e)) (2%nat :: o) l'
| BA_range l p b e o l' : bare b o l' -> bare (TRange l p b e) (1%nat :: o) l'
| BA_range_else l p b e o l' : bare e o l' -> bare (TRange l p b (Some e)) (2%nat :: o) l'
| BA_with l p b e o l' : bare b o l' -> bare (TWith l p b e) (1%nat :: o) l'
| BA_with_else l p b e o l' : bare e o l' -> bare (TWith l p b (Some e)) (2%nat :: o) l'.
(** [in_log file kws line p o d]: what is said about a pipeline and its parts.  The place of a command is
    [o ++ [j]], of an argument [o ++ [j; n]], of a keyword at an argument [o ++ [j; n; i]]. *)
Inductive in_log (file : bytes) (kws : list keyword) (line : Z) (p : pipe) : list nat -> dline -> Prop :=
| IL_pipe o q : inside p o q -> in_log file kws line p o (DPipe line)
| IL_cmd o q j : inside p o q -> (j < length q)%nat -> in_log file kws line p (o ++ [j]) (DCmd line)
| IL_arg o q j args n : inside p o q -> arguments q j args -> (n < length args)%nat -> in_log file kws line p (o ++ [j; n]) DArg
| IL_use o q j args n a i k d : inside p o q -> arguments q j args -> nth_error args n = Some a -> named a (k_name k) ->
    nth_error kws i = Some k -> verdict (ref file line) k args n d -> in_log file kws line p (o ++ [j; n; i]) d.
Inductive logged (file : bytes) (kws : list keyword) (t : tnode) : list nat -> dline -> Prop :=
| LG_pipe o1 line p o2 d : in_node t o1 line p -> in_log file kws line p o2 d -> logged file kws t (o1 ++ o2) d
| LG_bare o line : bare t o line -> logged file kws t o (DNilPipe line).
(** the order: a part comes after the whole; an argument comes before the pipeline it is *)
Inductive place_before : list nat -> list nat -> Prop :=
| PB_part i b : place_before [] (i :: b)
| PB_head i j a b : (i < j)%nat -> place_before (i :: a) (j :: b)
| PB_tail i a b : place_before a b -> place_before (i :: a) (i :: b).
Definition shown_before (x y : list nat * dline) : Prop :=
  place_before (fst x) (fst y) \/ fst x = fst y /\ snd x = DArg /\ exists l, snd y = DPipe l.
(** [complete P l]: [l] is what [P] says, in the order of the places *)
Definition complete (P : list nat -> dline -> Prop) (l : list dline) : Prop :=
  exists pl : list (list nat * dline), l = map snd pl /\ StronglySorted shown_before pl /\ forall o d, In (o, d) pl <-> P o d.

(** ** The log of a run *)
Section Runs.
Variable globs : fs -> bytes -> option (list bytes).
Variable creatable : bytes -> bool.
Variable parses : list bytes -> bytes -> bytes -> bytes -> option (list tnode).
Variable letter number : N -> bool.
(** what is said about a file; nothing but its name if it fails *)
Inductive file_said (p : param) (names : list bytes) (w : fs) (kws : list keyword) (n : bytes) : list nat -> dline -> Prop :=
| FS_file : file_said p names w kws n [] (DFile n)
| FS_template j t : nth_error (trees parses p names w n) j = Some t -> file_said p names w kws n [j] (DTemplate n)
| FS_inside j t o d : nth_error (trees parses p names w n) j = Some t -> logged n kws t o d -> file_said p names w kws n (j :: o) d.
Definition file_log p names w kws n (l : list dline) : Prop := complete (file_said p names w kws n) l.
(** a file for which a function name is unacceptable to the template package *)
Definition misnamed (names : list bytes) (w : fs) (n : bytes) : Prop :=
  exists src x, w n = Some src /\ In x (names ++ scan_func_names src) /\ good_name letter number x = false.
(** the number of different messages *)
Definition distinct (es : list entry) (n : nat) : Prop :=
  exists ks, NoDup ks /\ length ks = n /\ forall k, In k ks <-> exists e, In e es /\ e_key e = k.
(** the names known besides those of the file *)
Definition names_of (p : param) (kws : list keyword) : list bytes := map k_name kws ++ function_names (p_function p).
(** [run_log p w l]: a run with parameters [p] in the file system [w] logs [l] *)
Inductive run_log (p : param) (w : fs) : list dline -> Prop :=
| RL_keywords : (forall kws, ~ spells (p_keyword p) kws) -> run_log p w [DParam p]
| RL_open : to_file p = true -> creatable (p_output p) = false -> run_log p w [DParam p]
| RL_glob kws : spells (p_keyword p) kws -> (to_file p = true -> creatable (p_output p) = true) ->
    globs (opened p w) (p_input p) = None -> run_log p w [DParam p; DGlob None]
| RL_misnamed kws a n b ls : spells (p_keyword p) kws -> (to_file p = true -> creatable (p_output p) = true) ->
    globs (opened p w) (p_input p) = Some (a ++ n :: b) ->
    (forall m, In m a -> ~ misnamed (names_of p kws) (opened p w) m) -> misnamed (names_of p kws) (opened p w) n ->
    Forall2 (file_log p (names_of p kws) (opened p w) kws) a ls ->
    run_log p w (DParam p :: DGlob (Some (a ++ n :: b)) :: concat ls ++ [DFile n])
| RL_failed kws files ls n : spells (p_keyword p) kws -> (to_file p = true -> creatable (p_output p) = true) ->
    globs (opened p w) (p_input p) = Some files -> (forall m, In m files -> ~ misnamed (names_of p kws) (opened p w) m) ->
    In n files -> fails parses p (names_of p kws) (opened p w) n ->
    Forall2 (file_log p (names_of p kws) (opened p w) kws) files ls ->
    run_log p w (DParam p :: DGlob (Some files) :: concat ls)
| RL_done kws files ls es c : spells (p_keyword p) kws -> (to_file p = true -> creatable (p_output p) = true) ->
    globs (opened p w) (p_input p) = Some files -> (forall m, In m files -> ~ misnamed (names_of p kws) (opened p w) m) ->
    (forall n, In n files -> ~ fails parses p (names_of p kws) (opened p w) n) ->
    Forall2 (file_log p (names_of p kws) (opened p w) kws) files ls ->
    collected parses p (names_of p kws) (opened p w) kws files es -> distinct es c ->
    run_log p w (DParam p :: DGlob (Some files) :: concat ls ++ [DDone c]).
End Runs.
(** the messages announced in a log *)
Definition announced (l : list dline) : list entry := flat_map (fun d => match d with DOk _ e => [e] | _ => [] end) l.

(** ** Standard error in debug mode *)
(** the messages of debug mode *)
Definition debug_frames : list bytes :=
  [B "Warning: %+v"; B "failed to process file %v. error message: %+v"; B "run error: %+v"].
Section Verbose.
Variable p : param.
Variable names : list bytes.
Variable w : fs.
Variable tr : bytes -> bytes.
Variable read_err : bytes -> bytes.
Variable parse_err : list bytes -> bytes -> bytes -> bytes -> bytes.
Variable verbose : bytes -> bytes -> Prop.
(** a notice with the long text of its error *)
Inductive long_notice : report -> bytes -> Prop :=
| LN_conflict e m why long text :
    says tr (B "msgid '%v' is used without plural and with plural." ++ NL :: B "Line    =%v" ++ NL :: B "Previous=%v")
      [e_id e; listed (e_cmts e); listed (e_cmts m)] why ->
    verbose why long -> says tr (B "Warning: %+v") [long] text -> long_notice (Conflict e m) (text ++ [NL])
| LN_failed n why long text : explains p names w tr read_err parse_err n why -> verbose why long ->
    says tr (B "failed to process file %v. error message: %+v") [n; long] text -> long_notice (Failed n) (text ++ [NL]).
End Verbose.
