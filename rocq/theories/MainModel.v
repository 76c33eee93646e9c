(** Model of the command xtemplate: /repo/cmd/xtemplate/main.go.  Messages (which
    are translated) and the usage text are not modelled: they go to standard
    error. *)
From Verif Require Import GoStr GoMap FileModel XtModel WriteModel.

(** main.go:59-69: the flags and their defaults *)
Record flags := { fl_i : bytes; fl_left : bytes; fl_right : bytes; fl_k : bytes; fl_f : bytes; fl_o : bytes;
                  fl_d : bool; fl_v : bool; fl_h : bool }.
(* main.go:60-68 *)
Definition default_flags : flags :=
  {| fl_i := []; fl_left := B "{{"; fl_right := B "}}"; fl_k := []; fl_f := []; fl_o := [];
     fl_d := false; fl_v := false; fl_h := false |}.
(** the kinds of flags that flag.String and flag.Bool register: the lookup in
    f.formal together with Value.Set *)
(* main.go:60-68 *)
Inductive formal := FString (set : bytes -> flags -> flags) | FBool (set : bool -> flags -> flags).
(* main.go:60-68 *)
Definition lookup (name : bytes) : option formal :=
  if beq name (B "i") then Some (FString (fun v x => {| fl_i := v; fl_left := fl_left x; fl_right := fl_right x; fl_k := fl_k x; fl_f := fl_f x; fl_o := fl_o x; fl_d := fl_d x; fl_v := fl_v x; fl_h := fl_h x |}))
  else if beq name (B "left") then Some (FString (fun v x => {| fl_i := fl_i x; fl_left := v; fl_right := fl_right x; fl_k := fl_k x; fl_f := fl_f x; fl_o := fl_o x; fl_d := fl_d x; fl_v := fl_v x; fl_h := fl_h x |}))
  else if beq name (B "right") then Some (FString (fun v x => {| fl_i := fl_i x; fl_left := fl_left x; fl_right := v; fl_k := fl_k x; fl_f := fl_f x; fl_o := fl_o x; fl_d := fl_d x; fl_v := fl_v x; fl_h := fl_h x |}))
  else if beq name (B "k") then Some (FString (fun v x => {| fl_i := fl_i x; fl_left := fl_left x; fl_right := fl_right x; fl_k := v; fl_f := fl_f x; fl_o := fl_o x; fl_d := fl_d x; fl_v := fl_v x; fl_h := fl_h x |}))
  else if beq name (B "f") then Some (FString (fun v x => {| fl_i := fl_i x; fl_left := fl_left x; fl_right := fl_right x; fl_k := fl_k x; fl_f := v; fl_o := fl_o x; fl_d := fl_d x; fl_v := fl_v x; fl_h := fl_h x |}))
  else if beq name (B "o") then Some (FString (fun v x => {| fl_i := fl_i x; fl_left := fl_left x; fl_right := fl_right x; fl_k := fl_k x; fl_f := fl_f x; fl_o := v; fl_d := fl_d x; fl_v := fl_v x; fl_h := fl_h x |}))
  else if beq name (B "d") then Some (FBool (fun v x => {| fl_i := fl_i x; fl_left := fl_left x; fl_right := fl_right x; fl_k := fl_k x; fl_f := fl_f x; fl_o := fl_o x; fl_d := v; fl_v := fl_v x; fl_h := fl_h x |}))
  else if beq name (B "v") then Some (FBool (fun v x => {| fl_i := fl_i x; fl_left := fl_left x; fl_right := fl_right x; fl_k := fl_k x; fl_f := fl_f x; fl_o := fl_o x; fl_d := fl_d x; fl_v := v; fl_h := fl_h x |}))
  else if beq name (B "h") then Some (FBool (fun v x => {| fl_i := fl_i x; fl_left := fl_left x; fl_right := fl_right x; fl_k := fl_k x; fl_f := fl_f x; fl_o := fl_o x; fl_d := fl_d x; fl_v := fl_v x; fl_h := v |}))
  else None.
(** strconv.ParseBool *)
(* used by flag.Parse at main.go:78 *)
Definition parse_bool (s : bytes) : option bool :=
  if existsb (beq s) [B "1"; B "t"; B "T"; B "true"; B "TRUE"; B "True"] then Some true
  else if existsb (beq s) [B "0"; B "f"; B "F"; B "false"; B "FALSE"; B "False"] then Some false
  else None.
(** Go's flag.parseOne cuts the argument at the first equals sign that is not its
    first byte *)
(* used by flag.Parse at main.go:78 *)
Fixpoint cut_eq (s : bytes) : bytes * option bytes :=
  match s with
  | [] => ([], None)
  | c :: r => if Ascii.eqb c "=" then ([], Some r) else let (n, v) := cut_eq r in (c :: n, v)
  end.
(** an argument: not a flag, the end of the flags, bad syntax, or a flag with its name and value *)
(* used by flag.Parse at main.go:78 *)
Inductive arg := NoFlag | EndFlags | BadFlag | Flag (name : bytes) (value : option bytes).
(* used by flag.Parse at main.go:78 *)
Definition read_name (name : bytes) : arg :=
  match name with
  | [] => BadFlag
  | c :: r => if Ascii.eqb c "-" || Ascii.eqb c "=" then BadFlag
              else let (n, v) := cut_eq r in Flag (c :: n) v
  end.
(* used by flag.Parse at main.go:78 *)
Definition read_arg (s : bytes) : arg :=
  match s with
  | c :: d :: r =>
      if Ascii.eqb c "-" then
        if Ascii.eqb d "-" then match r with [] => EndFlags | _ => read_name r end
        else read_name (d :: r)
      else NoFlag
  | _ => NoFlag
  end.
(** Go's FlagSet.Parse: the flags, help, or an error *)
(* the outcomes of flag.Parse at main.go:78 *)
Inductive parsed := PFlags (x : flags) | PHelp | PBad.
(* called at main.go:78 *)
Fixpoint parse_flags (args : list bytes) (x : flags) : parsed :=
  match args with
  | [] => PFlags x
  | s :: rest =>
      match read_arg s with
      | NoFlag | EndFlags => PFlags x
      | BadFlag => PBad
      | Flag name value =>
          match lookup name with
          | None => if beq name (B "help") || beq name (B "h") then PHelp else PBad
          | Some (FBool set) =>
              match parse_bool (match value with Some v => v | None => B "true" end) with
              | Some b => parse_flags rest (set b x)
              | None => PBad
              end
          | Some (FString set) =>
              match value with
              | Some v => parse_flags rest (set v x)
              | None => match rest with v :: rest' => parse_flags rest' (set v x) | [] => PBad end
              end
          end
      end
  end.

(** ** The version: main.go:15-20, 108-148.  [info]: the module version and the settings of
    debug.ReadBuildInfo *)
Definition dev : bytes := B "dev".
(* main.go:119-123 *)
Record vcs := { v_revision : bytes; v_time : bytes; v_dirty : bool }.
(* main.go:125-132 *)
Definition setting (x : vcs) (kv : bytes * bytes) : vcs :=
  let (k, v) := kv in
  if beq k (B "vcs.revision") then {| v_revision := v; v_time := v_time x; v_dirty := v_dirty x |}
  else if beq k (B "vcs.time") then {| v_revision := v_revision x; v_time := v; v_dirty := v_dirty x |}
  else if beq k (B "vcs.modified") then {| v_revision := v_revision x; v_time := v_time x; v_dirty := beq v (B "true") |}
  else x.
(* main.go:108-148 *)
Definition version_string (version : bytes) (info : option (bytes * list (bytes * bytes))) : bytes :=
  if negb (is_empty version) && negb (beq version dev) then version
  else
    match info with
    | None => dev
    | Some (main, settings) =>
        if negb (is_empty main) && negb (beq main (B "(devel)")) then main
        else
          let x := fold_left setting settings {| v_revision := []; v_time := []; v_dirty := false |} in
          match v_revision x with
          | [] => dev
          | _ => join (B "-") ([firstn 12 (v_revision x)] ++ (if v_dirty x then [B "dirty"] else [])
                               ++ (match v_time x with [] => [] | _ => [v_time x] end))
          end
    end.
(** main.go:79-87 *)
Definition version_text (v : bytes) : bytes :=
  B "xtemplate" ++ NL :: B "https://github.com/youthlin/t/tree/main/cmd/xtemplate" ++ NL ::
  B "by Youth" ++ encode_rune 65294 ++ encode_rune 38678 ++ B "(https://youthlin.com)" ++ NL :: B "version: " ++ v ++ [NL].

(** ** main.go:37-55 and 78-105 *)
Definition to_param (x : flags) : param :=
  {| p_input := fl_i x; p_left := fl_left x; p_right := fl_right x; p_keyword := fl_k x; p_function := fl_f x; p_output := fl_o x |}.
(* main.go:29 and 92 *)
Definition blank_text (s : bytes) : bool := is_empty (trim_space s).
Section Main.
Variable isp : N -> bool.
Variable globs : fs -> bytes -> option (list bytes).
Variable creatable : bytes -> bool.
Variable parses : list bytes -> bytes -> bytes -> bytes -> option (list tnode).
Variable letter number : N -> bool.
Variable written : bytes -> Z * bool.
Variable closes : bool.
Variable version : bytes.
Variable info : option (bytes * list (bytes * bytes)).
(** param.go:27-31: what debug mode adds to standard output before and while
    running; run.go:41 prints the first line, the other lines are any
    here and exact in XtDebugModel *)
Definition debug_text (d : bool) (text : bytes) : Prop :=
  if d then exists more, text = B "run param=" ++ more else text = [].
(** the exit status, the file system and the standard output *)
(* main.go:37-55, 78-105 *)
Inductive main (now : bytes) (args : list bytes) (w : fs) : nat -> fs -> bytes -> Prop :=
| M_bad : parse_flags args default_flags = PBad -> main now args w 2 w []
| M_help : parse_flags args default_flags = PHelp -> main now args w 0 w []
| M_version x : parse_flags args default_flags = PFlags x -> fl_v x = true ->
    main now args w 0 w (version_text (version_string version info))
| M_usage x : parse_flags args default_flags = PFlags x -> fl_v x = false -> fl_h x = true -> main now args w 0 w []
| M_required x : parse_flags args default_flags = PFlags x -> fl_v x = false -> fl_h x = false ->
    blank_text (fl_i x) || blank_text (fl_k x) = true -> main now args w 2 w []
| M_run x o w' out dbg : parse_flags args default_flags = PFlags x -> fl_v x = false -> fl_h x = false ->
    blank_text (fl_i x) || blank_text (fl_k x) = false ->
    runs_io isp globs creatable parses letter number written closes now (to_param x) w o w' out -> debug_text (fl_d x) dbg ->
    main now args w (match o with ROk => 0 | RFail | RPanic => 2 end) w' (dbg ++ out).
End Main.
