(** Model of /repo/translator/{po,pot,reader}.go: reading and writing .po and
    .pot files. *)
From Coq Require Import Permutation.
From Verif Require Import GoStr GoQuote GoMap FileModel WrapModel.

(** ** Reading.  po.go:79-85, the values of [previousLineState] *)
Inductive pstate := SNone | SCtxt | SId2 | SId | SStrN | SStr.
(* the comparisons of previousLineState, po.go:115-220 and 228-235 *)
Definition st_eqb (a b : pstate) : bool :=
  match a, b with
  | SNone, SNone | SCtxt, SCtxt | SId2, SId2 | SId, SId | SStrN, SStrN | SStr, SStr => true
  | _, _ => false
  end.
(** po.go:228-235 *)
Definition equals_any (s : pstate) (l : list pstate) : bool := existsb (st_eqb s) l.
(** po.go:96, the zero Entry *)
Definition zero_entry : entry :=
  {| e_cmts := []; e_ctxt := []; e_id := []; e_plural := false; e_id2 := []; e_str := []; e_strn := [] |}.
(** field updates of po.go:121, 136, 151-152, 167, 182, 197, 209-218 *)
Definition app_cmt (e : entry) (c : bytes) : entry :=
  {| e_cmts := e_cmts e ++ [c]; e_ctxt := e_ctxt e; e_id := e_id e; e_plural := e_plural e;
     e_id2 := e_id2 e; e_str := e_str e; e_strn := e_strn e |}.
(* po.go:136 and 211 *)
Definition app_ctxt (e : entry) (d : bytes) : entry :=
  {| e_cmts := e_cmts e; e_ctxt := e_ctxt e ++ d; e_id := e_id e; e_plural := e_plural e;
     e_id2 := e_id2 e; e_str := e_str e; e_strn := e_strn e |}.
(* po.go:151 and 213 *)
Definition app_id2 (e : entry) (d : bytes) : entry :=
  {| e_cmts := e_cmts e; e_ctxt := e_ctxt e; e_id := e_id e; e_plural := e_plural e;
     e_id2 := e_id2 e ++ d; e_str := e_str e; e_strn := e_strn e |}.
(* po.go:152 *)
Definition set_plural (e : entry) : entry :=
  {| e_cmts := e_cmts e; e_ctxt := e_ctxt e; e_id := e_id e; e_plural := true;
     e_id2 := e_id2 e; e_str := e_str e; e_strn := e_strn e |}.
(* po.go:167 and 215 *)
Definition app_id (e : entry) (d : bytes) : entry :=
  {| e_cmts := e_cmts e; e_ctxt := e_ctxt e; e_id := e_id e ++ d; e_plural := e_plural e;
     e_id2 := e_id2 e; e_str := e_str e; e_strn := e_strn e |}.
(* po.go:182 *)
Definition new_strn (e : entry) (d : bytes) : entry :=
  {| e_cmts := e_cmts e; e_ctxt := e_ctxt e; e_id := e_id e; e_plural := e_plural e;
     e_id2 := e_id2 e; e_str := e_str e; e_strn := e_strn e ++ [d] |}.
(* po.go:197 and 219 *)
Definition app_str (e : entry) (d : bytes) : entry :=
  {| e_cmts := e_cmts e; e_ctxt := e_ctxt e; e_id := e_id e; e_plural := e_plural e;
     e_id2 := e_id2 e; e_str := e_str e ++ d; e_strn := e_strn e |}.
(** [l[len(l)-1] += d]; [None] is the index panic on an empty slice *)
(* po.go:217 *)
Fixpoint app_last (l : list bytes) (d : bytes) : option (list bytes) :=
  match l with
  | [] => None
  | [x] => Some [x ++ d]
  | x :: r => option_map (cons x) (app_last r d)
  end.
(* po.go:217 *)
Definition app_strn (e : entry) (d : bytes) : option entry :=
  option_map (fun l => {| e_cmts := e_cmts e; e_ctxt := e_ctxt e; e_id := e_id e;
     e_plural := e_plural e; e_id2 := e_id2 e; e_str := e_str e; e_strn := l |}) (app_last (e_strn e) d).
(** util.go:14-18 *)
Definition remove_prefix_unquote (line prefix : bytes) : option bytes :=
  unquote (trim_space (trim_prefix prefix line)).
(** pot.go:9-15 and po.go:87-94 *)
Definition P_cmt := B "#".
(* pot.go:10 *)
Definition K_ctxt := B "msgctxt".
(* pot.go:11 *)
Definition K_id := B "msgid".
(* pot.go:12 *)
Definition K_id2 := B "msgid_plural".
(* pot.go:13 *)
Definition K_str := B "msgstr".
(* pot.go:14 *)
Definition K_strn (i : nat) : bytes := B "msgstr[" ++ dec (N.of_nat i) ++ B "]".
(* po.go:88 *)
Definition P_ctxt := K_ctxt ++ [SP].
(* po.go:90 *)
Definition P_id := K_id ++ [SP].
(* po.go:89 *)
Definition P_id2 := K_id2 ++ [SP].
(* po.go:92 *)
Definition P_str := K_str ++ [SP].
(* po.go:91 *)
Definition P_strn (i : nat) : bytes := K_strn i ++ [SP].

(** What the loop body of [readEntry] (po.go:100-224) does with one line:
    go on with a new state and entry, put the line back and return, fail, or
    panic (index out of range). *)
Inductive action := ANext (s : pstate) (e : entry) | AUnget | AErr | APanic.
(* po.go:131-136 and the like: an error of removePrefixAndUnquote ends the reading *)
Definition on_data (line prefix : bytes) (k : bytes -> action) : action :=
  match remove_prefix_unquote line prefix with Some d => k d | None => AErr end.
(* po.go:109-224 *)
Definition line_action (s : pstate) (e : entry) (line : bytes) : action :=
  if is_empty (trim_space line) then ANext s e else
  if has_prefix P_cmt line then
    if negb (st_eqb s SNone) then AUnget else ANext s (app_cmt e line) else
  if has_prefix P_ctxt line then
    if negb (st_eqb s SNone) then AUnget
    else on_data line P_ctxt (fun d => ANext SCtxt (app_ctxt e d)) else
  if has_prefix P_id2 line then
    if equals_any s [SId2; SStr; SStrN] then AUnget
    else on_data line P_id2 (fun d => ANext SId2 (set_plural (app_id2 e d))) else
  if has_prefix P_id line then
    if equals_any s [SId; SId2; SStr; SStrN] then AUnget
    else on_data line P_id (fun d => ANext SId (app_id e d)) else
  if has_prefix (P_strn (length (e_strn e))) line then
    if equals_any s [SStr] then AUnget
    else on_data line (P_strn (length (e_strn e))) (fun d => ANext SStrN (new_strn e d)) else
  if has_prefix P_str line then
    if equals_any s [SStrN] then AUnget
    else on_data line P_str (fun d => ANext SStr (app_str e d)) else
  if has_prefix [DQ] line then
    on_data line [] (fun d =>
      match s with
      | SNone => ANext s e
      | SCtxt => ANext s (app_ctxt e d)
      | SId2 => ANext s (app_id2 e d)
      | SId => ANext s (app_id e d)
      | SStrN => match app_strn e d with Some e' => ANext s e' | None => APanic end
      | SStr => ANext s (app_str e d)
      end)
  else AErr.
(** [readEntry] (po.go:78-226) on the lines not yet read (reader.go: [nextLine]
    takes the head, [unGetLine] leaves it); error values are in PoErrModel. *)
Inductive rentry := REof (e : entry) | RNext (e : entry) (rest : list bytes) | RErr | RPanic.
(* po.go:78-226 *)
Fixpoint read_entry (s : pstate) (e : entry) (lines : list bytes) : rentry :=
  match lines with
  | [] => REof e
  | l :: rest =>
      match line_action s e l with
      | ANext s' e' => read_entry s' e' rest
      | AUnget => RNext e lines
      | AErr => RErr
      | APanic => RPanic
      end
  end.
(** po.go:26-46.  [PoFuel] is out of fuel (never happens with the fuel of
    [read_po_], see PoFacts); [PoPanic] also covers [AddEntry(nil)], which
    happens for a template on an error. *)
Inductive pores := PoOk (f : file) | PoErr | PoPanic | PoFuel.
(* po.go:34-45 *)
Fixpoint read_loop (fuel : nat) (pot : bool) (f : file) (lines : list bytes) : pores :=
  match fuel with
  | O => PoFuel
  | S n =>
      match read_entry SNone zero_entry lines with
      | REof e => PoOk (if pot || is_valid e then add_entry f e else f)
      | RNext e rest => read_loop n pot (if pot || is_valid e then add_entry f e else f) rest
      | RErr => if pot then PoPanic else PoErr
      | RPanic => PoPanic
      end
  end.
(* po.go:30-32 *)
Definition po_lines_of (content : bytes) : list bytes := split_byte NL (remove_byte CR content).
(* po.go:26-46 *)
Definition read_po_ (pot : bool) (content : bytes) : pores :=
  match content with
  | [] => PoErr
  | _ => let lines := po_lines_of content in read_loop (S (length lines)) pot new_file lines
  end.
(** po.go:18-24 *)
Definition read_po := read_po_ false.
(* po.go:22-24 *)
Definition read_pot := read_po_ true.

(** ** Writing; [isp] is the printability table of [%q]. *)
Section Write.
Variable isp : N -> bool.
(** pot.go:17-22 *)
Definition write_string (k content : bytes) : bytes :=
  k ++ SP :: concat (map (fun line => quote isp line ++ [NL]) (split_lines content)).
(* po.go:66-68 *)
Fixpoint write_strn (i : nat) (l : list bytes) : bytes :=
  match l with
  | [] => []
  | s :: r => write_string (K_strn i) s ++ write_strn (S i) r
  end.
(* po.go:52-55 and pot.go:28-31 *)
Definition write_cmts (l : list bytes) : bytes := concat (map (fun c => c ++ [NL]) l).
(** po.go:52-69, one entry *)
Definition po_entry (e : entry) : bytes :=
  write_cmts (e_cmts e)
  ++ (if negb (is_empty (e_ctxt e)) then write_string K_ctxt (e_ctxt e) else [])
  ++ write_string K_id (e_id e)
  ++ (if e_plural e then write_string K_id2 (e_id2 e) else [])
  ++ (if negb (is_empty (e_str e)) then write_string K_str (e_str e) else [])
  ++ write_strn 0 (e_strn e)
  ++ [NL].
(** pot.go:28-48, one entry *)
Definition pot_entry (e : entry) : bytes :=
  write_cmts (e_cmts e)
  ++ (if negb (is_empty (e_ctxt e)) then write_string K_ctxt (e_ctxt e) else [])
  ++ write_string K_id (e_id e)
  ++ (if negb (e_plural e) then
        (if is_empty (e_id e) then write_string K_str (e_str e) else write_string K_str [])
      else write_string K_id2 (e_id2 e) ++ write_string (K_strn 0) [] ++ write_string (K_strn 1) [])
  ++ [NL].
(** file.go:69-79 *)
Definition sorted_entries (f : file) (l : list entry) : Prop :=
  Permutation l (vals (f_entries f)) /\ sorted_by_key l.
(** po.go:49-73, pot.go:25-52: [out] is a possible output.  Errors of the
    destination writer are not modelled. *)
Definition saves_po (f : file) (out : bytes) : Prop :=
  exists l, sorted_entries f l /\ out = concat (map po_entry l).
(* pot.go:25-52 *)
Definition saves_pot (f : file) (out : bytes) : Prop :=
  exists l, sorted_entries f l /\ out = concat (map pot_entry l).
End Write.
