(** Which format strings demand how many arguments, for every byte string:
    the directives that do without an index in brackets, how the last one can
    stay open, and the argument behind the last one demanded.
    Independent of the scanner in GoFmt. *)
From Verif Require Import GoStr.
Local Open Scope N_scope.

(** what package fmt reads as one number: digits of which all but the last make
    at most a million *)
Definition number (ds : bytes) : Prop :=
  exists d c v, ds = d ++ [c] /\ is_digit c = true /\ digits_val 0 d = Some v /\ v <= 1000000.
(** what stands between a per cent sign and its verb: flags, a width and a
    precision, each a number, a star or absent *)
Definition between (b : bytes) : Prop :=
  exists fl w p, b = fl ++ w ++ p
    /\ (forall c, In c fl -> In c (B "#0+- "))
    /\ (w = [] \/ w = B "*" \/ number w /\ hd_error w <> Some "0"%char)
    /\ (p = [] \/ p = B "." \/ p = B ".*" \/ exists ds, p = "."%char :: ds /\ number ds).
(** one digit more than a number can have *)
Definition too_long (b : bytes) (c : ascii) : Prop :=
  is_digit c = true /\ exists a ds v, b = a ++ ds /\ digits_val 0 ds = Some v /\ 1000000 < v.
(** a byte that ends the directive: neither part of it nor an index *)
Definition verb_byte (b : bytes) (c : ascii) : Prop :=
  c <> "["%char /\ ~ between (b ++ [c]) /\ ~ too_long b c.
(** the arguments taken by the stars, and by the verb *)
Definition stars (b : bytes) : nat := count_occ ascii_dec b "*"%char.
Definition takes (c : ascii) : nat := if ascii_dec c "%" then 0%nat else 1%nat.
(** [demands s k]: [s] consists of text and complete directives without index,
    which take [k] arguments *)
Inductive demands : bytes -> nat -> Prop :=
| D_end : demands [] 0
| D_text c s k : c <> "%"%char -> demands s k -> demands (c :: s) k
| D_dir b c s k : between b -> verb_byte b c -> demands s k ->
    demands ("%"%char :: b ++ c :: s) (stars b + takes c + k).
(** [left_open s k]: behind text and complete directives without index, [s] ends
    in a directive that gets no verb, be it at the end of [s] or because a number
    is too long; [k] arguments are taken up to there *)
Definition left_open (s : bytes) (k : nat) : Prop :=
  exists p b r n, s = p ++ "%"%char :: b ++ r /\ demands p n /\ between b
    /\ (r = [] \/ exists c r', r = c :: r' /\ too_long b c) /\ (k = n + stars b)%nat.
