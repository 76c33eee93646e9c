(** What a string literal of a .po file denotes.  Independent of the
    unquoting functions: a relation between the bytes between the quotes and
    the text. *)
From Verif Require Import GoStr.
Local Open Scope N_scope.

(** [utf8 r w]: the bytes [w] are the UTF-8 form of the character [r] *)
Inductive utf8 (r : N) : bytes -> Prop :=
| U1 a : r < 0x80 -> code a = r -> utf8 r [a]
| U2 a b : 0x80 <= r < 0x800 -> code a = 0xC0 + r / 0x40 -> code b = 0x80 + r mod 0x40 -> utf8 r [a; b]
| U3 a b c : 0x800 <= r < 0x10000 -> ~ (0xD800 <= r <= 0xDFFF) ->
    code a = 0xE0 + r / 0x1000 -> code b = 0x80 + r / 0x40 mod 0x40 -> code c = 0x80 + r mod 0x40 -> utf8 r [a; b; c]
| U4 a b c d : 0x10000 <= r < 0x110000 ->
    code a = 0xF0 + r / 0x40000 -> code b = 0x80 + r / 0x1000 mod 0x40 ->
    code c = 0x80 + r / 0x40 mod 0x40 -> code d = 0x80 + r mod 0x40 -> utf8 r [a; b; c; d].

(** the value of one hexadecimal digit, and of a row of them *)
Inductive hexd : ascii -> N -> Prop :=
| H_09 c v : v < 10 -> code c = 0x30 + v -> hexd c v
| H_af c v : 10 <= v < 16 -> code c = 0x61 + (v - 10) -> hexd c v
| H_AF c v : 10 <= v < 16 -> code c = 0x41 + (v - 10) -> hexd c v.
Inductive hexn : bytes -> N -> Prop :=
| HN_nil : hexn [] 0
| HN_snoc ds c v d : hexn ds v -> hexd c d -> hexn (ds ++ [c]) (16 * v + d).
(** an octal digit *)
Definition octd (c : ascii) (v : N) : Prop := v < 8 /\ code c = 0x30 + v.

(** the one-letter escapes between quotes [q] *)
Definition escapes (q : ascii) : list (ascii * N) :=
  [("a"%char, 7); ("b"%char, 8); ("t"%char, 9); ("n"%char, 10); ("v"%char, 11); ("f"%char, 12); ("r"%char, 13);
   (q, code q); (BSL, 92)].

(** [ch q w t s]: between quotes [q], the bytes [w], followed by [s], are one
    character or escape sequence and stand for [t] *)
Inductive ch (q : ascii) : bytes -> bytes -> bytes -> Prop :=
| C_ascii c s : code c < 0x80 -> c <> q -> c <> BSL -> c <> NL -> ch q [c] [c] s
| C_char r w s : 0x80 <= r -> utf8 r w -> ch q w w s
(* a byte which does not begin a character in UTF-8 stands for U+FFFD *)
| C_bad c w s : 0x80 <= code c -> (forall r x y, utf8 r x -> c :: s <> x ++ y) -> utf8 0xFFFD w -> ch q [c] w s
| C_esc e c s : In (e, code c) (escapes q) -> ch q [BSL; e] [c] s
| C_oct x y z a b d c s : octd x a -> octd y b -> octd z d -> code c = 64 * a + 8 * b + d -> ch q [BSL; x; y; z] [c] s
| C_hex ds c s : hexn ds (code c) -> length ds = 2%nat -> ch q (BSL :: "x"%char :: ds) [c] s
| C_u ds r w s : hexn ds r -> length ds = 4%nat -> utf8 r w -> ch q (BSL :: "u"%char :: ds) w s
| C_U ds r w s : hexn ds r -> length ds = 8%nat -> utf8 r w -> ch q (BSL :: "U"%char :: ds) w s.
(** [lit body t]: between double quotes, [body] denotes the text [t] *)
Inductive lit : bytes -> bytes -> Prop :=
| L_nil : lit [] []
| L_cons w x s t : ch DQ w x s -> lit s t -> lit (w ++ s) (x ++ t).

(** [literal q t]: the text [q] is a string denoting [t] *)
Inductive literal : bytes -> bytes -> Prop :=
| L_double body t : lit body t -> literal (DQ :: body ++ [DQ]) t
(* a Go raw string: everything up to the next back quote, without carriage returns *)
| L_raw body : ~ In BQ body -> literal (BQ :: body ++ [BQ]) (filter (fun c => negb (Ascii.eqb c CR)) body)
| L_none : literal [SQ; SQ] []
(* a Go character constant: exactly one character between single quotes *)
| L_one body t : ch SQ body t [] -> literal (SQ :: body ++ [SQ]) t.
