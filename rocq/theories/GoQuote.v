(** [strconv.Quote] (reached through [fmt.Fprintf(buf, "%q\n", line)] in
    /repo/translator/pot.go:17-22) and [strconv.Unquote] (called in
    /repo/translator/util.go:14-18).  Model of the Go 1.23 library. *)
From Verif Require Import GoStr.
Local Open Scope N_scope.

Section Printable.
(** [unicode.IsPrint] for runes >= 0x80; the code never depends on which
    table is used, so it is an arbitrary function.  Below 0x80 it is
    0x20 <= r < 0x7f. *)
Variable is_print_hi : N -> bool.
(* used by fmt "%q" at translator/pot.go:20 *)
Definition is_print (r : N) : bool :=
  if r <? 0x80 then (0x20 <=? r) && (r <? 0x7F) else is_print_hi r.

(* used by fmt "%q" at translator/pot.go:20 *)
Definition lowerhex (n : N) : ascii :=
  if n <? 10 then byte_of (48 + n) else byte_of (87 + n).
(** [k] hexadecimal digits of [n], most significant first *)
(* used by fmt "%q" at translator/pot.go:20 *)
Fixpoint hex_digits (k : nat) (n : N) : bytes :=
  match k with
  | O => []
  | S k' => hex_digits k' (n / 16) ++ [lowerhex (n mod 16)]
  end.

(** strconv.appendEscapedRune with quote = the double quote *)
(* used by fmt "%q" at translator/pot.go:20 *)
Definition escape_rune (r : N) : bytes :=
  if (r =? code DQ) || (r =? code BSL) then [BSL; byte_of r]
  else if is_print r then encode_rune r
  else if r =? 7 then BSL :: B "a"
  else if r =? 8 then BSL :: B "b"
  else if r =? 12 then BSL :: B "f"
  else if r =? 10 then BSL :: B "n"
  else if r =? 13 then BSL :: B "r"
  else if r =? 9 then BSL :: B "t"
  else if r =? 11 then BSL :: B "v"
  else if (r <? 0x20) || (r =? 0x7F) then BSL :: "x"%char :: hex_digits 2 r
  else if negb (valid_rune r) then BSL :: "u"%char :: hex_digits 4 RuneError
  else if r <? 0x10000 then BSL :: "u"%char :: hex_digits 4 r
  else BSL :: "U"%char :: hex_digits 8 r.

(** strconv.appendQuotedWith: the body between the quotes *)
(* used by fmt "%q" at translator/pot.go:20 *)
Fixpoint quote_body (fuel : nat) (s : bytes) : bytes :=
  match fuel, s with
  | O, _ => []
  | _, [] => []
  | S f, c :: t =>
      let (r, w) := decode_rune s in
      if Nat.eqb w 1 && (r =? RuneError)
      then BSL :: "x"%char :: hex_digits 2 (code c) ++ quote_body f t
      else escape_rune r ++ quote_body f (skipn w s)
  end.
(* used by fmt "%q" at translator/pot.go:20 *)
Definition quote (s : bytes) : bytes := DQ :: quote_body (length s) s ++ [DQ].
End Printable.

(* used by strconv.Unquote at translator/util.go:17 *)
Definition unhex (c : ascii) : option N :=
  if in_range 48 57 c then Some (code c - 48)
  else if in_range 97 102 c then Some (code c - 87)
  else if in_range 65 70 c then Some (code c - 55)
  else None.
(* used by strconv.Unquote at translator/util.go:17 *)
Fixpoint read_hex (k : nat) (acc : N) (s : bytes) : option (N * bytes) :=
  match k with
  | O => Some (acc, s)
  | S k' =>
      match s with
      | [] => None
      | c :: t => match unhex c with Some v => read_hex k' (acc * 16 + v) t | None => None end
      end
  end.
(* used by strconv.Unquote at translator/util.go:17 *)
Definition oct (c : ascii) : option N :=
  if in_range 48 55 c then Some (code c - 48) else None.

(** strconv.UnquoteChar: (value, multibyte, tail); [None] is ErrSyntax *)
(* used by strconv.Unquote at translator/util.go:17 *)
Definition unquote_char (s : bytes) (q : ascii) : option (N * bool * bytes) :=
  match s with
  | [] => None
  | c :: t =>
      if Ascii.eqb c q && (Ascii.eqb q SQ || Ascii.eqb q DQ) then None
      else if 0x80 <=? code c then
        let (r, w) := decode_rune s in Some (r, true, skipn w s)
      else if negb (Ascii.eqb c BSL) then Some (code c, false, t)
      else
        match t with
        | [] => None
        | e :: u =>
            let simple v := Some (v, false, u) in
            if Ascii.eqb e "a" then simple 7
            else if Ascii.eqb e "b" then simple 8
            else if Ascii.eqb e "f" then simple 12
            else if Ascii.eqb e "n" then simple 10
            else if Ascii.eqb e "r" then simple 13
            else if Ascii.eqb e "t" then simple 9
            else if Ascii.eqb e "v" then simple 11
            else if Ascii.eqb e "x" then
              match read_hex 2 0 u with Some (v, u') => Some (v, false, u') | None => None end
            else if Ascii.eqb e "u" then
              match read_hex 4 0 u with
              | Some (v, u') => if valid_rune v then Some (v, true, u') else None
              | None => None
              end
            else if Ascii.eqb e "U" then
              match read_hex 8 0 u with
              | Some (v, u') => if valid_rune v then Some (v, true, u') else None
              | None => None
              end
            else
              match oct e with
              | Some v0 =>
                  match u with
                  | o1 :: o2 :: u' =>
                      match oct o1, oct o2 with
                      | Some v1, Some v2 =>
                          let v := v0 * 64 + v1 * 8 + v2 in
                          if 255 <? v then None else Some (v, false, u')
                      | _, _ => None
                      end
                  | _ => None
                  end
              | None =>
                  if Ascii.eqb e BSL then simple (code BSL)
                  else if Ascii.eqb e SQ || Ascii.eqb e DQ then
                    if Ascii.eqb e q then simple (code e) else None
                  else None
              end
        end
  end.

(** the loop of strconv.unquote for quoted strings with escapes, started after
    the opening quote: output and the rest after the closing quote *)
(* used by strconv.Unquote at translator/util.go:17 *)
Fixpoint unquote_loop (fuel : nat) (q : ascii) (s : bytes) : option (bytes * bytes) :=
  match fuel with
  | O => None
  | S f =>
      match s with
      | [] => None                                  (* no terminating quote *)
      | c :: t =>
          if Ascii.eqb c q then Some ([], t)
          else
            match unquote_char s q with
            | None => None
            | Some (r, multi, rem) =>
                if Ascii.eqb c NL then None
                else
                  let out := if (r <? 0x80) || negb multi then [byte_of r] else encode_rune r in
                  if Ascii.eqb q SQ then            (* a single character only *)
                    match rem with
                    | d :: rem' => if Ascii.eqb d q then Some (out, rem') else None
                    | [] => None
                    end
                  else
                    match unquote_loop f q rem with
                    | Some (o, rest) => Some (out ++ o, rest)
                    | None => None
                    end
            end
      end
  end.

(** strconv.Unquote; [None] is ErrSyntax *)
(* used by strconv.Unquote at translator/util.go:17 *)
Definition unquote (s : bytes) : option bytes :=
  match s with
  | [] => None
  | q :: t =>
      match index_byte q t with
      | None => None
      | Some e =>
          let inner := firstn e t in
          let rest := skipn (S e) t in
          if Ascii.eqb q BQ then
            match rest with [] => Some (remove_byte CR inner) | _ => None end
          else if Ascii.eqb q DQ || Ascii.eqb q SQ then
            let fast_ok :=
              negb (contains_byte BSL inner) && negb (contains_byte NL inner)
              && (if Ascii.eqb q DQ then valid_utf8 inner
                  else match inner with
                       | [] => false
                       | _ => let (r, w) := decode_rune inner in
                              Nat.eqb w (length inner) && negb ((r =? RuneError) && Nat.eqb w 1)
                       end) in
            if fast_ok then match rest with [] => Some inner | _ => None end
            else
              match unquote_loop (S (length t)) q t with
              | Some (o, []) => Some o
              | _ => None
              end
          else None
      end
  end.
