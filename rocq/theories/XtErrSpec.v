(** Specifications of what xtemplate says on standard error.  Independent of the
    functions of XtErrModel. *)
From Coq Require Import List ZArith NArith Bool Ascii Sorted.
From Verif Require Import GoStr GoQuote GoMap FileModel PoModel BlankSpec XtModel XtSpec.
Import ListNotations.
Local Open Scope Z_scope.

(** ** Messages with holes *)
(** [reads f ts]: format [f] consists of the texts [ts] with a verb %v, %s or %+v
    between any two of them *)
Inductive reads : bytes -> list bytes -> Prop :=
| RD_end t : ~ In "%"%char t -> reads t [t]
| RD_hole t v f ts : ~ In "%"%char t -> In v [B "v"; B "s"; B "+v"] -> reads f ts -> reads (t ++ B "%" ++ v ++ f) (t :: ts).
Fixpoint fill (ts xs : list bytes) : bytes :=
  match ts with
  | [] => []
  | t :: ts' => match ts', xs with _ :: _, x :: xs' => t ++ x ++ fill ts' xs' | _, _ => t end
  end.
(** [says tr m xs text]: [text] is the translation of message [m] with [xs] in its holes *)
Definition says (tr : bytes -> bytes) (m : bytes) (xs : list bytes) (text : bytes) : Prop :=
  exists ts, reads (tr m) ts /\ length ts = S (length xs) /\ text = fill ts xs.
(** the same, but the translation may leave out what comes last *)
Definition tells (tr : bytes -> bytes) (m : bytes) (xs : list bytes) (text : bytes) : Prop :=
  exists ts, reads (tr m) ts /\ (length ts <= S (length xs))%nat /\ text = fill ts xs.
(** a translation that has as many verbs as the message, or at most as many *)
Definition keeps (tr : bytes -> bytes) (m : bytes) : Prop :=
  forall ts, reads m ts -> exists ts', reads (tr m) ts' /\ length ts' = length ts.
Definition fits (tr : bytes -> bytes) (m : bytes) : Prop :=
  forall ts, reads m ts -> exists ts', reads (tr m) ts' /\ (length ts' <= length ts)%nat.
(** the messages of xtemplate, without those of debug mode and usage, of which the
    second ones add details to the first ones *)
Definition frames : list bytes :=
  [B "invalid keywords: %s"; B "can not open output file: %s"; B "invalid input pattern";
   B "msgid '%v' is used without plural and with plural." ++ NL :: B "Line    =%v" ++ NL :: B "Previous=%v"; B "Warning: %v";
   B "failed to read file %v"; B "failed to parse file %v"; B "failed to process file %v. error message: %v";
   B "run error: %v"; B "unexpected error: %+v" ++ [NL]].
Definition details : list bytes :=
  [B "msg id index is not a number"; B "context index is not a number: %v"; B "msg id index is not a number: %v";
   B "msg plural index is not a number: %v"; B "context index must end with 'c': %v"; B "msg context index is not a number: %v";
   B "too much keyword index"].
(** a language in which the messages can be given *)
Definition sound (tr : bytes -> bytes) : Prop :=
  (forall m, In m frames -> keeps tr m) /\ (forall m, In m details -> fits tr m).
(** a list of strings as fmt shows it *)
Definition listed (l : list bytes) : bytes := B "[" ++ join [SP] l ++ B "]".
(** a message and its cause *)
Definition because (message cause : bytes) : bytes :=
  match message with [] => cause | _ => message ++ B ": " ++ cause end.

(** ** Numbers that are no positions *)
(** the number is out of range: the digits at the beginning are a number above 64
    bits, or the whole is a number above 63 bits and a sign *)
Definition out_of_range (s : bytes) : Prop :=
  exists sg ds rest, s = sg ++ ds ++ rest /\ In sg [[]; B "+"; B "-"] /\ ds <> [] /\ (forall c, In c ds -> (48 <= code c <= 57)%N)
    /\ (2 ^ 64 <= decimal ds \/ rest = [] /\ ~ - 2 ^ 63 <= (if beq sg (B "-") then - decimal ds else decimal ds) < 2 ^ 63).
Definition number_error (isp : N -> bool) (s text : bytes) : Prop :=
  out_of_range s /\ text = B "strconv.ParseInt: parsing " ++ quote isp s ++ B ": value out of range"
  \/ ~ out_of_range s /\ text = B "strconv.ParseInt: parsing " ++ quote isp s ++ B ": invalid syntax".
Definition no_number (s : bytes) : Prop := forall z, ~ numeral s z.

(** ** What is wrong with a keyword *)
(** [wrong_index xs m args cause]: the positions [xs] are wrong; [m] with [args]
    describes it, [cause] is the text that should have been a number *)
Inductive wrong_index : list bytes -> bytes -> list bytes -> option bytes -> Prop :=
| WI_one a : no_number a -> wrong_index [a] (B "msg id index is not a number") [] (Some a)
| WI_ctxt a b : no_number a -> wrong_index [a ++ B "c"; b] (B "context index is not a number: %v") [a] (Some a)
| WI_ctxt_id a b z : numeral a z -> no_number b -> wrong_index [a ++ B "c"; b] (B "msg id index is not a number: %v") [b] (Some b)
| WI_id a b : (forall x, a <> x ++ B "c") -> no_number a -> wrong_index [a; b] (B "msg id index is not a number: %v") [a] (Some a)
| WI_plural a b z : numeral a z -> no_number b -> wrong_index [a; b] (B "msg plural index is not a number: %v") [b] (Some b)
| WI_suffix a b d : (forall x, a <> x ++ B "c") -> wrong_index [a; b; d] (B "context index must end with 'c': %v") [a] None
| WI_all_ctxt a b d : no_number a -> wrong_index [a ++ B "c"; b; d] (B "msg context index is not a number: %v") [a] (Some a)
| WI_all_id a b d z : numeral a z -> no_number b -> wrong_index [a ++ B "c"; b; d] (B "msg id index is not a number: %v") [b] (Some b)
| WI_all_plural a b d z z' : numeral a z -> numeral b z' -> no_number d ->
    wrong_index [a ++ B "c"; b; d] (B "msg id index is not a number: %v") [d] (Some d)
| WI_many a b c d r : wrong_index (a :: b :: c :: d :: r) (B "too much keyword index") [] None.
(** [wrong t detail cause]: the keyword [t] is wrong; nothing more is said about a
    missing name and a second colon *)
Inductive wrong : bytes -> option (bytes * list bytes) -> option bytes -> Prop :=
| WR_blank t : blanks t -> wrong t None None
| WR_name t r : blanks t -> ~ In ":"%char t -> wrong (t ++ B ":" ++ r) None None
| WR_colons a b r : wrong (a ++ B ":" ++ b ++ B ":" ++ r) None None
| WR_index tn n ts xs m args cause : trims tn n -> n <> [] -> ~ In ":"%char tn ->
    Forall2 trims ts xs -> (forall t, In t ts -> ~ In ":"%char t /\ ~ In ","%char t) ->
    wrong_index xs m args cause -> wrong (tn ++ B ":" ++ join (B ",") ts) (Some (m, args)) cause.
(** the error for the specification [str]: about the first wrong keyword in it *)
Definition keyword_error (isp : N -> bool) (tr : bytes -> bytes) (str text : bytes) : Prop :=
  exists ts t us ks d cause head detail,
    str = join (B ";") (ts ++ t :: us) /\ (forall x, In x (ts ++ t :: us) -> ~ In ";"%char x)
    /\ Forall2 spells1 ts ks /\ wrong t d cause
    /\ says tr (B "invalid keywords: %s") [str] head
    /\ match d with Some (m, xs) => tells tr m xs detail | None => detail = [] end
    /\ match cause with
       | Some s => exists why, number_error isp s why /\ text = because (head ++ detail) why
       | None => text = head ++ detail
       end.

(** ** Reports *)
Section Told.
Variable parses : list bytes -> bytes -> bytes -> bytes -> option (list tnode).
Variable p : param.
Variable names : list bytes.
Variable w : fs.
Variable kws : list keyword.
(** a file that cannot be read or is no template *)
Definition fails (n : bytes) : Prop :=
  w n = None \/ exists src, w n = Some src /\ parses (names ++ scan_func_names src) (p_left p) (p_right p) src = None.
(** the messages of a file, in the order of their places *)
Definition messages_of (n : bytes) (es : list entry) : Prop :=
  exists l : list (list nat * entry), es = map snd l /\ StronglySorted before (map fst l)
    /\ forall o e, In (o, e) l <->
         exists j t o' k, o = j :: o' /\ nth_error (trees parses p names w n) j = Some t /\ message n kws t o' k e /\ gapless k.
(** [warned l es rs]: after the messages [l], the messages [es] lead to the reports [rs]: one for every
    message that differs in plurality from what is there *)
Inductive warned : list entry -> list entry -> list report -> Prop :=
| WA_nil l : warned l [] []
| WA_quiet l e es rs : (forall m, merged l (e_key e) m -> e_plural m = e_plural e) ->
    warned (l ++ [e]) es rs -> warned l (e :: es) rs
| WA_loud l e es rs m : merged l (e_key e) m -> e_plural m <> e_plural e ->
    warned (l ++ [e]) es rs -> warned l (e :: es) (Conflict e m :: rs).
(** [told l files rs]: after the messages [l], the files lead to the reports [rs] *)
Inductive told : list entry -> list bytes -> list report -> Prop :=
| TO_nil l : told l [] []
| TO_fails l n files rs : fails n -> told l files rs -> told l (n :: files) (Failed n :: rs)
| TO_fine l n files es r rs : ~ fails n -> messages_of n es -> warned l es r -> told (l ++ es) files rs ->
    told l (n :: files) (r ++ rs).
(** the messages of all the files that do not fail, in order *)
Inductive collected : list bytes -> list entry -> Prop :=
| CO_nil : collected [] []
| CO_fails n files es : fails n -> collected files es -> collected (n :: files) es
| CO_fine n files e es : ~ fails n -> messages_of n e -> collected files es -> collected (n :: files) (e ++ es).
(** ** Standard error *)
Variable tr : bytes -> bytes.
Variable read_err : bytes -> bytes.
Variable parse_err : list bytes -> bytes -> bytes -> bytes -> bytes.
(** [explains n why]: [why] is the error of the failing file [n]: what could not be done, to
    which file, and why *)
Definition explains (n why : bytes) : Prop :=
  exists text, w n = None /\ says tr (B "failed to read file %v") [n] text /\ why = because text (read_err n)
  \/ exists src, w n = Some src /\ says tr (B "failed to parse file %v") [n] text
        /\ why = because text (parse_err (names ++ scan_func_names src) (p_left p) (p_right p) src).
(** [notice r line]: the text [line] for the report [r] *)
Inductive notice : report -> bytes -> Prop :=
| NO_conflict e m why text :
    says tr (B "msgid '%v' is used without plural and with plural." ++ NL :: B "Line    =%v" ++ NL :: B "Previous=%v")
      [e_id e; listed (e_cmts e); listed (e_cmts m)] why ->
    says tr (B "Warning: %v") [why] text -> notice (Conflict e m) (text ++ [NL])
| NO_failed n why text : explains n why ->
    says tr (B "failed to process file %v. error message: %v") [n; why] text -> notice (Failed n) (text ++ [NL]).
End Told.
(** the names of the failed files *)
Definition failed_names (rs : list report) : list bytes := flat_map (fun r => match r with Failed n => [n] | Conflict _ _ => [] end) rs.
(** the messages that were warned about *)
Definition warned_of (rs : list report) : list entry := flat_map (fun r => match r with Failed _ => [] | Conflict e _ => [e] end) rs.
