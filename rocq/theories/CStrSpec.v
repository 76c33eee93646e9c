(** String literals of the C language: what the bytes between double quotes
    denote (ISO C, 6.4.4.4 and 6.4.5).  The .po format uses the C syntax for
    strings.  Independent of the quoting functions. *)
From Verif Require Import GoStr LitSpec.
Local Open Scope N_scope.

Definition c_escapes : list (ascii * N) :=
  [("a"%char, 7); ("b"%char, 8); ("t"%char, 9); ("n"%char, 10); ("v"%char, 11); ("f"%char, 12); ("r"%char, 13);
   (DQ, 34); (SQ, 39); ("?"%char, 63); (BSL, 92)].
Inductive octn : bytes -> N -> Prop :=
| ON_one c v : octd c v -> octn [c] v
| ON_snoc ds c v d : octn ds v -> octd c d -> octn (ds ++ [c]) (8 * v + d).
(** [cch w t s]: the bytes [w], followed by [s], are one character or escape
    sequence and stand for the byte [t]; the numeric escapes are as long as
    possible, octal ones up to three digits *)
Inductive cch : bytes -> ascii -> bytes -> Prop :=
| CC_plain c s : c <> DQ -> c <> BSL -> c <> NL -> cch [c] c s
| CC_esc e c s : In (e, code c) c_escapes -> cch [BSL; e] c s
| CC_oct ds c s : octn ds (code c) -> (length ds = 3 \/ length ds < 3 /\ forall x t v, s = x :: t -> ~ octd x v)%nat ->
    cch (BSL :: ds) c s
| CC_hex ds c s : ds <> [] -> hexn ds (code c) -> (forall x t v, s = x :: t -> ~ hexd x v) ->
    cch (BSL :: "x"%char :: ds) c s.
Inductive cstr : bytes -> bytes -> Prop :=
| CS_nil : cstr [] []
| CS_cons w c s t : cch w c s -> cstr s t -> cstr (w ++ s) (c :: t).

(** a text of characters that are printable or have an escape of their own *)
Inductive plain_text (isp : N -> bool) : bytes -> Prop :=
| P_nil : plain_text isp []
| P_cons r w s : utf8 r w -> (0x20 <= r < 0x7F \/ 7 <= r <= 13 \/ (0x80 <= r /\ isp r = true)) ->
    plain_text isp s -> plain_text isp (w ++ s).
(** a text in which control characters without an escape of their own, and bytes
    that are no characters, are not followed by a hexadecimal digit, and whose
    other characters are printable or have an escape of their own *)
Definition no_digit (s : bytes) : Prop := forall x t v, s = x :: t -> ~ hexd x v.
Inductive c_text (isp : N -> bool) : bytes -> Prop :=
| T_nil : c_text isp []
| T_char r w s : utf8 r w -> (0x20 <= r < 0x7F \/ 7 <= r <= 13 \/ (0x80 <= r /\ isp r = true)) ->
    c_text isp s -> c_text isp (w ++ s)
| T_control c s : code c < 7 \/ 13 < code c < 0x20 \/ code c = 0x7F -> no_digit s -> c_text isp s -> c_text isp (c :: s)
| T_byte c s : (forall r x y, utf8 r x -> c :: s <> x ++ y) -> no_digit s -> c_text isp s -> c_text isp (c :: s).
