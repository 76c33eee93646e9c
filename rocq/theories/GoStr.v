(** Go's byte strings and the parts of the packages [strings], [strconv]
    (decimal numbers) and [unicode/utf8] which the modelled code calls.
    These are models of the Go 1.23 standard library, not of /repo; they are
    part of the trusted base.  A Go [string] or [[]byte] is a list of bytes. *)
From Coq Require Export Ascii String NArith ZArith Arith Bool List.
Export ListNotations.

(* the Go type string, everywhere in /repo *)
Definition bytes := list ascii.
(* a string literal of /repo *)
Definition B (s : string) : bytes := list_ascii_of_string s.
Arguments B s%string_scope.
(* used at every comparison of bytes *)
Definition code (c : ascii) : N := N_of_ascii c.
(* used at every construction of bytes *)
Definition byte_of (n : N) : ascii := ascii_of_N n.

(* translator/mo.go:65 *)
Definition NUL : ascii := "000"%char.
(* translator/mo.go:66 *)
Definition EOT : ascii := "004"%char.
(* plurals/plural.g4:29 *)
Definition TAB : ascii := "009"%char.
(* translator/po.go:32 *)
Definition NL  : ascii := "010"%char.
(* translator/po.go:31 *)
Definition CR  : ascii := "013"%char.
(* translator/wrap.go:29 *)
Definition SP  : ascii := " "%char.
(* translator/pot.go:20 *)
Definition DQ  : ascii := """"%char.
(* used by strconv.Unquote at util.go:17 *)
Definition SQ  : ascii := "'"%char.
(* used by strconv.Unquote at util.go:17 *)
Definition BQ  : ascii := "`"%char.
(* used by strconv.Unquote at util.go:17 *)
Definition BSL : ascii := "\"%char.

(** string equality [==] *)
(* used at translator/entry.go:27 and wherever /repo compares strings *)
Fixpoint beq (a b : bytes) : bool :=
  match a, b with
  | [], [] => true
  | x :: a', y :: b' => Ascii.eqb x y && beq a' b'
  | _, _ => false
  end.

(** string order [<] (bytewise lexicographic) *)
(* used at translator/file.go:74, translations.go:131 *)
Fixpoint bltb (a b : bytes) : bool :=
  match a, b with
  | [], [] => false
  | [], _ :: _ => true
  | _ :: _, [] => false
  | x :: a', y :: b' =>
      if (code x <? code y)%N then true
      else if (code y <? code x)%N then false else bltb a' b'
  end.

(** [strings.HasPrefix(s, p)], [strings.TrimPrefix(s, p)], [strings.HasSuffix] *)
(* used at translator/entry.go:49, po.go:114-203 *)
Fixpoint has_prefix (p s : bytes) : bool :=
  match p, s with
  | [], _ => true
  | _ :: _, [] => false
  | x :: p', y :: s' => Ascii.eqb x y && has_prefix p' s'
  end.
(* used at translator/entry.go:50, util.go:15 *)
Definition trim_prefix (p s : bytes) : bytes :=
  if has_prefix p s then skipn (length p) s else s.
(* used at translaton.go:75,104,106, keyword.go:64,95 *)
Definition has_suffix (p s : bytes) : bool := has_prefix (rev p) (rev s).

(** [strings.Index(s, "c")] and [strings.LastIndex(s, "c")] for one-byte
    patterns, the only ones used; [None] stands for -1. *)
(* used at translator/wrap.go:17, mo.go:183,187 *)
Fixpoint index_byte (c : ascii) (s : bytes) : option nat :=
  match s with
  | [] => None
  | x :: t => if Ascii.eqb x c then Some 0 else option_map S (index_byte c t)
  end.
(* used at translator/wrap.go:29 *)
Fixpoint last_index_byte (c : ascii) (s : bytes) : option nat :=
  match s with
  | [] => None
  | x :: t =>
      match last_index_byte c t with
      | Some i => Some (S i)
      | None => if Ascii.eqb x c then Some 0 else None
      end
  end.
(* used at cmd/xtemplate/internal/helper.go:21 *)
Definition contains_byte (c : ascii) (s : bytes) : bool := existsb (Ascii.eqb c) s.

(** [strings.Split(s, "c")] for a one-byte separator *)
(* used at translator/entry.go:53-54, file.go:104, mo.go:190, po.go:32, keyword.go:23,32,50, param.go:66 *)
Fixpoint split_byte (c : ascii) (s : bytes) : list bytes :=
  match s with
  | [] => [[]]
  | x :: t =>
      if Ascii.eqb x c then [] :: split_byte c t
      else match split_byte c t with
           | [] => [[x]]
           | h :: r => (x :: h) :: r
           end
  end.
(** [strings.Join(l, sep)] *)
(* used at translator/entry.go:69, mo.go:332, main.go:147, param.go:156 *)
Fixpoint join (sep : bytes) (l : list bytes) : bytes :=
  match l with
  | [] => []
  | [x] => x
  | x :: r => x ++ sep ++ join sep r
  end.
(** [strings.ReplaceAll(s, "c", "")] *)
(* used at translator/po.go:31, plurals/exp.go:23 *)
Definition remove_byte (c : ascii) (s : bytes) : bytes :=
  filter (fun x => negb (Ascii.eqb x c)) s.

(** ** unicode/utf8 *)
Local Open Scope N_scope.
(* used by strconv.Quote, see GoQuote *)
Definition RuneError : N := 0xFFFD.
(* used by the decoder below *)
Definition in_range (lo hi : N) (c : ascii) : bool := (lo <=? code c) && (code c <=? hi).
(* used by the decoder below *)
Definition is_cont (c : ascii) : bool := in_range 0x80 0xBF c.

(** [utf8.DecodeRuneInString]: the rune and the number of bytes consumed *)
(* used by strconv.Quote at pot.go:20, strconv.Unquote at util.go:17, strings.TrimSpace at util.go:16 *)
Definition decode_rune (s : bytes) : N * nat :=
  match s with
  | [] => (RuneError, 0%nat)
  | c0 :: t =>
      let b0 := code c0 in
      if b0 <? 0x80 then (b0, 1%nat)
      else if b0 <? 0xC2 then (RuneError, 1%nat)
      else if b0 <? 0xE0 then
        match t with
        | c1 :: _ =>
            if is_cont c1 then ((b0 - 0xC0) * 64 + (code c1 - 0x80), 2%nat)
            else (RuneError, 1%nat)
        | _ => (RuneError, 1%nat)
        end
      else if b0 <? 0xF0 then
        match t with
        | c1 :: c2 :: _ =>
            let lo := if b0 =? 0xE0 then 0xA0 else 0x80 in
            let hi := if b0 =? 0xED then 0x9F else 0xBF in
            if in_range lo hi c1 && is_cont c2
            then ((b0 - 0xE0) * 4096 + (code c1 - 0x80) * 64 + (code c2 - 0x80), 3%nat)
            else (RuneError, 1%nat)
        | _ => (RuneError, 1%nat)
        end
      else if b0 <? 0xF5 then
        match t with
        | c1 :: c2 :: c3 :: _ =>
            let lo := if b0 =? 0xF0 then 0x90 else 0x80 in
            let hi := if b0 =? 0xF4 then 0x8F else 0xBF in
            if in_range lo hi c1 && is_cont c2 && is_cont c3
            then ((b0 - 0xF0) * 262144 + (code c1 - 0x80) * 4096
                  + (code c2 - 0x80) * 64 + (code c3 - 0x80), 4%nat)
            else (RuneError, 1%nat)
        | _ => (RuneError, 1%nat)
        end
      else (RuneError, 1%nat)
  end.

(** [utf8.ValidRune] *)
(* used by strconv.Unquote at util.go:17 *)
Definition valid_rune (r : N) : bool :=
  (r <? 0xD800) || ((0xDFFF <? r) && (r <=? 0x10FFFF)).

(** [utf8.AppendRune]/[utf8.EncodeRune] *)
(* used by strconv.Unquote at util.go:17 *)
Definition encode_rune (r : N) : bytes :=
  let r := if valid_rune r then r else RuneError in
  if r <? 0x80 then [byte_of r]
  else if r <? 0x800 then [byte_of (0xC0 + r / 64); byte_of (0x80 + r mod 64)]
  else if r <? 0x10000 then
    [byte_of (0xE0 + r / 4096); byte_of (0x80 + (r / 64) mod 64); byte_of (0x80 + r mod 64)]
  else
    [byte_of (0xF0 + r / 262144); byte_of (0x80 + (r / 4096) mod 64);
     byte_of (0x80 + (r / 64) mod 64); byte_of (0x80 + r mod 64)].

(** [utf8.ValidString] *)
(* used by strconv.Unquote at util.go:17 *)
Fixpoint valid_utf8_fuel (fuel : nat) (s : bytes) : bool :=
  match fuel, s with
  | _, [] => true
  | O, _ => false
  | S f, _ =>
      let (r, w) := decode_rune s in
      if (r =? RuneError) && Nat.eqb w 1 then false
      else valid_utf8_fuel f (skipn w s)
  end.
(* used by strconv.Unquote at util.go:17 *)
Definition valid_utf8 (s : bytes) : bool := valid_utf8_fuel (length s) s.

(** [unicode.IsSpace] *)
(* used by strings.TrimSpace *)
Definition is_space (r : N) : bool :=
  ((0x9 <=? r) && (r <=? 0xD)) || (r =? 0x20) || (r =? 0x85) || (r =? 0xA0)
  || (r =? 0x1680) || ((0x2000 <=? r) && (r <=? 0x200A)) || (r =? 0x2028)
  || (r =? 0x2029) || (r =? 0x202F) || (r =? 0x205F) || (r =? 0x3000).

(** [strings.TrimSpace].  Leading side: decode runes from the left.  Trailing
    side: Go decodes the last rune ([utf8.DecodeLastRuneInString]); a trailing
    rune is white space exactly if the string ends in the encoding of a white
    space rune, which is what [rspace_len] tests on the reversed string. *)
(* used by strings.TrimSpace *)
Definition space_len (s : bytes) : nat :=
  match s with
  | [] => 0%nat
  | _ => let (r, w) := decode_rune s in if is_space r then w else 0%nat
  end.
(* used by strings.TrimSpace *)
Fixpoint trim_left_fuel (fuel : nat) (s : bytes) : bytes :=
  match fuel with
  | O => s
  | S f => match space_len s with O => s | S w => trim_left_fuel f (skipn (S w) s) end
  end.
(* used by strings.TrimSpace *)
Definition trim_left (s : bytes) : bytes := trim_left_fuel (length s) s.
(* used by strings.TrimSpace *)
Definition rspace_len (rs : bytes) : nat :=
  match rs with
  | [] => 0%nat
  | c0 :: t =>
      if code c0 <? 0x80 then (if is_space (code c0) then 1%nat else 0%nat)
      else match t with
           | [] => 0%nat
           | c1 :: t1 =>
               let (r2, w2) := decode_rune [c1; c0] in
               if Nat.eqb w2 2 && is_space r2 then 2%nat
               else match t1 with
                    | [] => 0%nat
                    | c2 :: _ =>
                        let (r3, w3) := decode_rune [c2; c1; c0] in
                        if Nat.eqb w3 3 && is_space r3 then 3%nat else 0%nat
                    end
           end
  end.
(* used by strings.TrimSpace *)
Fixpoint rtrim_fuel (fuel : nat) (rs : bytes) : bytes :=
  match fuel with
  | O => rs
  | S f => match rspace_len rs with O => rs | S w => rtrim_fuel f (skipn (S w) rs) end
  end.
(* used by strings.TrimSpace *)
Definition trim_right (s : bytes) : bytes := rev (rtrim_fuel (length s) (rev s)).
(* used at translator/file.go:114-115, po.go:110, util.go:16, main.go:29,92, keyword.go:26-52, param.go:68 *)
Definition trim_space (s : bytes) : bytes := trim_right (trim_left s).

(** ** decimal numbers *)
(* used by strconv.ParseInt *)
Definition is_digit (c : ascii) : bool := in_range 48 57 c.
(* used by the decimal numbers of fmt *)
Definition digit (n : N) : ascii := byte_of (48 + n).

(** [fmt "%d"] of a non-negative number *)
(* used by the decimal numbers of fmt *)
Fixpoint dec_fuel (fuel : nat) (n : N) : bytes :=
  match fuel with
  | O => []
  | S f => if n <? 10 then [digit n] else dec_fuel f (n / 10) ++ [digit (n mod 10)]
  end.
(* used at translator/po.go:67,171 *)
Definition dec (n : N) : bytes := dec_fuel (S (N.to_nat (N.log2 n))) n.
(* used at translator/entry.go:61, f/format.go:21, run.go:207 *)
Definition dec_Z (z : Z) : bytes :=
  match z with
  | Z0 => dec 0
  | Zpos p => dec (Npos p)
  | Zneg p => "-"%char :: dec (Npos p)
  end.

(** value of a digit string *)
(* used by strconv.ParseInt *)
Fixpoint digits_val (acc : N) (s : bytes) : option N :=
  match s with
  | [] => Some acc
  | c :: t => if is_digit c then digits_val (acc * 10 + (code c - 48)) t else None
  end.
Local Open Scope Z_scope.
(* used by strconv.ParseInt *)
Definition int64_min : Z := - 2 ^ 63.
(* used by strconv.ParseInt *)
Definition int64_max : Z := 2 ^ 63 - 1.
(* used by strconv.ParseInt *)
Definition in_int64 (z : Z) : bool := (int64_min <=? z) && (z <=? int64_max).
(** wrap-around of int64 arithmetic *)
(* used by the arithmetic of plurals/exp.go:93-306 and common.go:18-71 *)
Definition wrap64 (z : Z) : Z := (z + 2 ^ 63) mod 2 ^ 64 - 2 ^ 63.

(** [strconv.ParseInt(s, 10, 64)]: [None] is any error *)
(* used at translator/entry.go:57, plural.go:33, plurals/exp.go:320, keyword.go:56-111 *)
Definition parse_int (s : bytes) : option Z :=
  match s with
  | [] => None
  | c :: t =>
      let neg := Ascii.eqb c "-"%char in
      let body := if neg || Ascii.eqb c "+"%char then t else s in
      match body with
      | [] => None
      | _ =>
          match digits_val 0%N body with
          | None => None
          | Some n =>
              let z := if neg then - Z.of_N n else Z.of_N n in
              if in_int64 z then Some z else None
          end
      end
  end.
