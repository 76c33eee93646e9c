(** Package fmt: [Sprintf], as far as the scanning of the format string and the
    choice of arguments go (func (p *pp) doPrintf of fmt/print.go).  Model of the
    Go library.  How one argument is rendered under given flags, width,
    precision and verb is the parameter [print]; the exceptions are the two
    renderings the code under study relies on: a string under a plain %s and
    an int under a plain %d.
    Simplified: the flag characters are passed to [print] as written; the
    clearing of one flag by another is part of [print].  *)
From Verif Require Import GoStr.
Local Open Scope Z_scope.

(* used by fmt.Sprintf at f/format.go:21-22 and fmt.Errorf at errors/errors.go:9-18 *)
Record spec := { sp_flags : bytes; sp_wid : option Z; sp_prec : option Z; sp_verb : N }.
(* used by fmt.Sprintf at f/format.go:21-22 and fmt.Errorf at errors/errors.go:9-18 *)
Definition plain (verb : N) : spec := {| sp_flags := []; sp_wid := None; sp_prec := None; sp_verb := verb |}.

(* used by fmt.Sprintf at f/format.go:21-22 and fmt.Errorf at errors/errors.go:9-18 *)
Inductive arg (A : Type) := VStr (s : bytes) | VInt (z : Z) | VOther (a : A).
Arguments VStr {A}. Arguments VInt {A}. Arguments VOther {A}.

(** pieces of output *)
(* used by fmt.Sprintf at f/format.go:21-22 and fmt.Errorf at errors/errors.go:9-18 *)
Inductive chunk (A : Type) :=
| CText (s : bytes)             (* literal text *)
| CArg (d : spec) (v : arg A)   (* an argument *)
| CPercent                      (* a per cent sign written by %% *)
| CBadWidth | CBadPrec | CNoVerb
| CBadIndex (verb : N) | CMissing (verb : N)
| CExtra (vs : list (arg A)).   (* the marker of surplus arguments *)
Arguments CText {A}. Arguments CArg {A}. Arguments CPercent {A}. Arguments CBadWidth {A}. Arguments CBadPrec {A}.
Arguments CNoVerb {A}. Arguments CBadIndex {A}. Arguments CMissing {A}. Arguments CExtra {A}.

(* used by fmt.Sprintf at f/format.go:21-22 and fmt.Errorf at errors/errors.go:9-18 *)
Definition is_flag (c : ascii) : bool :=
  Ascii.eqb c "#" || Ascii.eqb c "0" || Ascii.eqb c "+" || Ascii.eqb c "-" || Ascii.eqb c " ".
(* used by fmt.Sprintf at f/format.go:21-22 and fmt.Errorf at errors/errors.go:9-18 *)
Definition too_large (x : Z) : bool := (x >? 1000000) || (x <? -1000000).
(** parsenum(s, 0, len(s)) *)
(* used by fmt.Sprintf at f/format.go:21-22 and fmt.Errorf at errors/errors.go:9-18 *)
Fixpoint parsenum (num : Z) (isnum : bool) (s : bytes) : Z * bool * bytes :=
  match s with
  | c :: t => if is_digit c then
                if too_large num then (0, false, [])
                else parsenum (num * 10 + (Z.of_N (code c) - 48)) true t
              else (num, isnum, s)
  | [] => (num, isnum, [])
  end.
(** parseArgNumber: index, remaining text, ok *)
(* used by fmt.Sprintf at f/format.go:21-22 and fmt.Errorf at errors/errors.go:9-18 *)
Definition parse_arg_number (s : bytes) : Z * bytes * bool :=
  if Nat.ltb (length s) 3 then (0, tl s, false)
  else match index_byte "]" (tl s) with
       | Some k =>
           let inner := firstn k (tl s) in
           let rest := skipn (S k) (tl s) in
           match parsenum 0 false inner with
           | (width, true, []) => (width - 1, rest, true)
           | _ => (0, rest, false)
           end
       | None => (0, tl s, false)
       end.

Section Printf.
Context {A : Type}.
Notation arg := (arg A). Notation chunk := (chunk A).
Variable print : spec -> arg -> bytes.
Variable as_int : arg -> option Z.     (* intFromArg's view of a value *)
Variable extra : list arg -> bytes.    (* the text of the marker *)

(* used by fmt.Sprintf at f/format.go:21-22 and fmt.Errorf at errors/errors.go:9-18 *)
Record st := { s_arg : nat; s_good : bool; s_reord : bool }.
(** argNumber: new state, rest, found *)
(* used by fmt.Sprintf at f/format.go:21-22 and fmt.Errorf at errors/errors.go:9-18 *)
Definition arg_number (n : nat) (s : bytes) (x : st) : st * bytes * bool :=
  match s with
  | c :: _ =>
      if Ascii.eqb c "[" then
        match parse_arg_number s with
        | (index, rest, ok) =>
            if ok && (0 <=? index) && (index <? Z.of_nat n)
            then ({| s_arg := Z.to_nat index; s_good := s_good x; s_reord := true |}, rest, true)
            else ({| s_arg := s_arg x; s_good := false; s_reord := true |}, rest, ok)
        end
      else (x, s, false)
  | [] => (x, s, false)
  end.
(** intFromArg *)
(* used by fmt.Sprintf at f/format.go:21-22 and fmt.Errorf at errors/errors.go:9-18 *)
Definition int_from_arg (args : list arg) (argnum : nat) : Z * bool * nat :=
  match nth_error args argnum with
  | Some v =>
      match as_int v with
      | Some z => if too_large z then (0, false, S argnum) else (z, true, S argnum)
      | None => (0, false, S argnum)
      end
  | None => (0, false, argnum)
  end.
(* used by fmt.Sprintf at f/format.go:21-22 and fmt.Errorf at errors/errors.go:9-18 *)
Definition set_arg (x : st) (k : nat) : st := {| s_arg := k; s_good := s_good x; s_reord := s_reord x |}.
(* used by fmt.Sprintf at f/format.go:21-22 and fmt.Errorf at errors/errors.go:9-18 *)
Definition set_bad (x : st) : st := {| s_arg := s_arg x; s_good := false; s_reord := s_reord x |}.
(* used by fmt.Sprintf at f/format.go:21-22 and fmt.Errorf at errors/errors.go:9-18 *)
Fixpoint span (p : ascii -> bool) (s : bytes) : bytes * bytes :=
  match s with
  | c :: t => if p c then let (a, b) := span p t in (c :: a, b) else ([], s)
  | [] => ([], [])
  end.
(** the part of the loop body behind a per cent sign: chunks, new state, rest;
    [None] stands for the end of the loop *)
(* used by fmt.Sprintf at f/format.go:21-22 and fmt.Errorf at errors/errors.go:9-18 *)
Definition verb_at (s : bytes) : option (N * bytes) :=
  match s with
  | [] => None
  | c :: t =>
      if (code c <? 128)%N then Some (code c, t)
      else let (r, w) := decode_rune s in Some (r, skipn w s)
  end.
(* used by fmt.Sprintf at f/format.go:21-22 and fmt.Errorf at errors/errors.go:9-18 *)
Definition finish (args : list arg) (fl : bytes) (wid prec : option Z) (x : st) (s : bytes) (pre : list chunk)
  : list chunk * st * bytes :=
  match verb_at s with
  | None => (pre ++ [CNoVerb], x, [])
  | Some (verb, rest) =>
      if (verb =? 37)%N then (pre ++ [CPercent], x, rest)
      else if negb (s_good x) then (pre ++ [CBadIndex verb], x, rest)
      else match nth_error args (s_arg x) with
           | None => (pre ++ [CMissing verb], x, rest)
           | Some v => (pre ++ [CArg {| sp_flags := fl; sp_wid := wid; sp_prec := prec; sp_verb := verb |} v],
                        set_arg x (S (s_arg x)), rest)
           end
  end.
(* used by fmt.Sprintf at f/format.go:21-22 and fmt.Errorf at errors/errors.go:9-18 *)
Definition with_prec (args : list arg) (fl : bytes) (wid : option Z) (x : st) (after : bool) (s : bytes) (pre : list chunk)
  : list chunk * st * bytes :=
  let go x after s prec pre :=
    if (after : bool) then finish args fl wid prec x s pre
    else let '(x', s', _) := arg_number (length args) s x in finish args fl wid prec x' s' pre in
  match s with
  | c :: t =>
      if Ascii.eqb c "." then
        let x := if after then set_bad x else x in
        let '(x, t, after) := arg_number (length args) t x in
        match t with
        | c' :: t' =>
            if Ascii.eqb c' "*" then
              let '(z, isint, k) := int_from_arg args (s_arg x) in
              let present := isint && negb (z <? 0) in
              go (set_arg x k) false t' (if present then Some z else None) (if present then pre else pre ++ [CBadPrec])
            else
              let '(z, isnum, t'') := parsenum 0 false t in
              go x after t'' (Some (if isnum : bool then z else 0)) pre
        | [] => go x after [] (Some 0) pre
        end
      else go x after s None pre
  | [] => go x after s None pre
  end.
(* used by fmt.Sprintf at f/format.go:21-22 and fmt.Errorf at errors/errors.go:9-18 *)
Definition directive (args : list arg) (x : st) (s : bytes) : list chunk * st * bytes :=
  let (fl, s1) := span is_flag s in
  let x := {| s_arg := s_arg x; s_good := true; s_reord := s_reord x |} in
  let simple := match s1 with
                | c :: t => if (97 <=? code c)%N && (code c <=? 122)%N then
                              match nth_error args (s_arg x) with
                              | Some v => Some (code c, t, v)
                              | None => None
                              end
                            else None
                | [] => None
                end in
  match simple with
  | Some (verb, rest, v) =>
      ([CArg {| sp_flags := fl; sp_wid := None; sp_prec := None; sp_verb := verb |} v], set_arg x (S (s_arg x)), rest)
  | None =>
      let '(x, s2, after) := arg_number (length args) s1 x in
      match s2 with
      | c :: t =>
          if Ascii.eqb c "*" then
            let '(z, isint, k) := int_from_arg args (s_arg x) in
            with_prec args fl (if isint : bool then Some z else None) (set_arg x k) false t
              (if isint : bool then [] else [CBadWidth])
          else
            let '(z, isnum, s3) := parsenum 0 false s2 in
            with_prec args fl (if isnum : bool then Some z else None)
              (if after && isnum then set_bad x else x) after s3 []
      | [] => with_prec args fl None x after [] []
      end
  end.
(** doPrintf.  Each round consumes a byte at least, so [S (length format)]
    rounds are enough; running out of fuel is an explicit outcome. *)
(* used by fmt.Sprintf at f/format.go:21-22 and fmt.Errorf at errors/errors.go:9-18 *)
Fixpoint printf_loop (fuel : nat) (args : list arg) (x : st) (s : bytes) : option (list chunk) :=
  match fuel with
  | O => None
  | S f =>
      match s with
      | [] => Some (if negb (s_reord x) && Nat.ltb (s_arg x) (length args) then [CExtra (skipn (s_arg x) args)] else [])
      | _ =>
          let (txt, s1) := span (fun c => negb (Ascii.eqb c "%")) s in
          let pre := match txt with [] => [] | _ => [CText txt] end in
          match s1 with
          | [] => match printf_loop f args x [] with Some r => Some (pre ++ r) | None => None end
          | _ :: s2 =>
              let '(out, x', s3) := directive args x s2 in
              match printf_loop f args x' s3 with Some r => Some (pre ++ out ++ r) | None => None end
          end
      end
  end.
(* used by fmt.Sprintf at f/format.go:21-22 and fmt.Errorf at errors/errors.go:9-18 *)
Definition printf_chunks (format : bytes) (args : list arg) : option (list chunk) :=
  printf_loop (S (length format) + 1) args {| s_arg := 0; s_good := true; s_reord := false |} format.

(* used by fmt.Sprintf at f/format.go:21-22 and fmt.Errorf at errors/errors.go:9-18 *)
Definition print_arg (d : spec) (v : arg) : bytes :=
  match sp_flags d, sp_wid d, sp_prec d, v with
  | [], None, None, VStr s => if (sp_verb d =? 115)%N then s else print d v
  | [], None, None, VInt z => if (sp_verb d =? 100)%N then dec_Z z else print d v
  | _, _, _, _ => print d v
  end.
(* used by fmt.Sprintf at f/format.go:21-22 and fmt.Errorf at errors/errors.go:9-18 *)
Definition show (c : chunk) : bytes :=
  match c with
  | CText s => s
  | CArg d v => print_arg d v
  | CPercent => B "%"
  | CBadWidth => B "%!(BADWIDTH)"
  | CBadPrec => B "%!(BADPREC)"
  | CNoVerb => B "%!(NOVERB)"
  | CBadIndex verb => B "%!" ++ encode_rune verb ++ B "(BADINDEX)"
  | CMissing verb => B "%!" ++ encode_rune verb ++ B "(MISSING)"
  | CExtra vs => B "%!(EXTRA " ++ extra vs ++ B ")"
  end.
(* used by fmt.Sprintf at f/format.go:21-22 and fmt.Errorf at errors/errors.go:9-18 *)
Definition render (cs : list chunk) : bytes := concat (map show cs).
(* used by fmt.Sprintf at f/format.go:21-22 and fmt.Errorf at errors/errors.go:9-18 *)
Definition sprintf (format : bytes) (args : list arg) : bytes :=
  match printf_chunks format args with Some cs => render cs | None => [] end.

(** ** /repo/f/format.go:12-23 *)
Definition format_f (format : bytes) (args : list arg) : bytes :=
  match args with
  | [] => format
  | _ =>
      let args' := args ++ [VStr []] in
      let format' := sprintf (B "%s%%[%d]s") [VStr format; VInt (Z.of_nat (length args) + 1)] in
      sprintf format' args'
  end.
End Printf.
