(** Model of what [plurals.Eval] prints when its context asks for it:
    /repo/plurals/debug.go and the calls of [debug] in /repo/plurals/exp.go. *)
From Verif Require Import GoStr PluralModel AtnModel GenModel.
Local Open Scope Z_scope.

(** the context given to Eval: nil, one without the key, one made by [DebugCtx] *)
(* plurals/debug.go:5-14, plurals/exp.go:15 *)
Inductive ctx := Nil | Plain | Debug.
(** a step of the listener: given the text printed so far, the text printed after
    it and its value; no value is a panic *)
(* plurals/exp.go:76-335 *)
Definition step (T : Type) := bytes -> bytes * option T.
(* plurals/exp.go:76-335: one statement after the other *)
Definition done {T} (a : T) : step T := fun o => (o, Some a).
(* plurals/exp.go:121, 285, 304, 322 and the panics of the operators *)
Definition broken {T} : step T := fun o => (o, None).
(* plurals/exp.go:76-335 *)
Definition andthen {T U} (m : step T) (f : T -> step U) : step U :=
  fun o => match m o with (o', Some a) => f a o' | (o', None) => (o', None) end.
(** a value computed without printing *)
(* plurals/exp.go:138-281 *)
Definition calc {T} (m : option T) : step T := match m with Some a => done a | None => broken end.
(** [debug]: the method [Value] of a nil context panics *)
(* plurals/exp.go:331-335 *)
Definition debug (c : ctx) (line : bytes) : step unit :=
  fun o => match c with
           | Nil => (o, None)
           | Plain => (o, Some tt)
           | Debug => (o ++ line ++ [NL], Some tt)
           end.
(** a stack as [%v] prints it: a slice, the bottom first *)
(* plurals/exp.go:98, 130, 273, 287, 295, 317, 326; stack.go:8 *)
Definition stack_text (s : stack) : bytes := B "[" ++ join [SP] (map dec_Z (rev s)) ++ B "]".

(* plurals/exp.go:93-123 *)
Definition say_prefix (c : ctx) (o : option gtok) (s : stack) : step stack :=
  match o with
  | None => done s
  | Some t =>
      andthen (debug c (B "prefix: " ++ snd t ++ B " stack=" ++ stack_text s)) (fun _ =>
      calc (exit_prefix o s))
  end.
(* plurals/exp.go:125-288 *)
Definition say_bop (c : ctx) (o : option gtok) (s : stack) : step stack :=
  match o with
  | None => done s
  | Some t =>
      andthen (debug c (B "bop   : " ++ snd t ++ B " stack=" ++ stack_text s)) (fun _ =>
      andthen (if beq (snd t) (B "?") then debug c (stack_text s) else done tt) (fun _ =>
      andthen (calc (exit_bop o s)) (fun s' =>
      andthen (debug c (B "bop done stack=" ++ stack_text s')) (fun _ => done s'))))
  end.
(* plurals/exp.go:290-306 *)
Definition say_postfix (c : ctx) (o : option gtok) (s : stack) : step stack :=
  match o with
  | None => done s
  | Some t =>
      andthen (debug c (B "postfix: " ++ snd t ++ B " stack=" ++ stack_text s)) (fun _ =>
      calc (exit_postfix o s))
  end.
(* plurals/exp.go:81-91 *)
Definition say_exp (c : ctx) (pre bop post : option gtok) (s : stack) : step stack :=
  andthen (say_prefix c pre s) (fun s => andthen (say_bop c bop s) (fun s => say_postfix c post s)).
(* plurals/exp.go:309-327 *)
Definition say_primary (c : ctx) (n : Z) (start : gtok) (cs : list tree) (s : stack) : step stack :=
  andthen (if beq (snd start) (B "(") then debug c (B "primary: (exp) stack=" ++ stack_text s)
           else done tt) (fun _ =>
  andthen (calc (exit_primary n start cs s)) (fun s' =>
  andthen (debug c (B "primary: " ++ flat_map get_text cs ++ B " stack=" ++ stack_text s')) (fun _ =>
  done s'))).
(** the walk *)
(* plurals/exp.go:45, 76-78 *)
Fixpoint say_walk (c : ctx) (n : Z) (t : tree) (st : stack * Z) : step (stack * Z) :=
  let all := fix all (cs : list tree) (st : stack * Z) : step (stack * Z) :=
    match cs with [] => done st | x :: r => andthen (say_walk c n x st) (fun st => all r st) end in
  match t with
  | Leaf _ => done st
  | ExpContext pre bop post cs =>
      andthen (all cs st) (fun st =>
      andthen (say_exp c pre bop post (fst st)) (fun s => done (s, snd st)))
  | PrimaryContext start cs =>
      andthen (all cs st) (fun st =>
      andthen (say_primary c n start cs (fst st)) (fun s => done (s, snd st)))
  | StartContext cs =>
      andthen (all cs st) (fun st => let (v, s) := pop (fst st) in done (s, v))
  end.
(** Eval: the text printed and the result.  Simplified: when the parser reports an
    error, the walk over what it could make of the text may print too, or panic;
    that text is left out.  The result is an error in any case *)
(* plurals/exp.go:15-47 *)
Definition say_eval (c : ctx) (s : bytes) (n : Z) : bytes * eres :=
  match assoc_bytes (remove_byte SP s) commons with
  | Some fun_ => ([], EvOk (fun_ n))
  | None =>
      match gen_parse s with
      | GOk t _ =>
          match say_walk c n t ([], 0) [] with
          | (out, Some (_, v)) => (out, EvOk v)
          | (out, None) => (out, recovered EvPanic)
          end
      | GErr => ([], EvErr)
      | GFuel => ([], EvFuel)
      end
  end.
