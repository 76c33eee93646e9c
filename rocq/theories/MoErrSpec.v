(** What is wrong with a content that is no MO file, and what its error says.
    Independent of the reader. *)
From Verif Require Import GoStr GoFmt MoModel MoSpec ErrModel PoErrSpec.
Local Open Scope N_scope.

Definition size (c : bytes) : N := N.of_nat (length c).
(** the row of a table at position [p], and whether its string is inside the content *)
Definition row (bo : border) (c : bytes) (p l o : N) : Prop := word_at bo c p l /\ word_at bo c (p + 4) o.
Definition fits (c : bytes) (l o : N) : Prop := l = 0 \/ o + l <= size c.
Definition good_row (bo : border) (c : bytes) (p : N) : Prop := exists l o, row bo c p l o /\ fits c l o.
(** the header: a known version, [n] strings, the tables at [o] and [t] *)
Definition head_ok (bo : border) (c : bytes) (n o t : N) : Prop :=
  word_at bo c 0 0x950412de /\ 28 <= size c
  /\ (exists major minor, half_at bo c 4 major /\ half_at bo c 6 minor /\ major <= 1 /\ minor <= 1)
  /\ word_at bo c 8 n /\ word_at bo c 12 o /\ word_at bo c 16 t.
(** a table of [n] rows at [p] is inside the content; row [i] is the first that is not *)
Definition has_table (c : bytes) (p n : N) : Prop := n = 0 \/ p + 8 * n <= size c.
Definition cut_row (c : bytes) (p n i : N) : Prop := i < n /\ has_table c p i /\ size c < p + 8 * i + 8.
(** why bytes at [p] are missing: nothing is left there, or too little *)
Inductive reason := NoCause | Nothing | Too_little.
Definition missing (c : bytes) (p : N) : reason := if size c <=? p then Nothing else Too_little.
(** [fault c m r]: the first thing wrong with [c], in words *)
Inductive fault (c : bytes) : bytes -> reason -> Prop :=
| F_no_magic : size c < 4 -> fault c (B "failed to read magic number") (missing c 0)
| F_magic v : word_at LE c 0 v -> v <> 0x950412de -> ~ word_at BE c 0 0x950412de ->
    fault c (B "invalid magic number: " ++ dec v) NoCause
| F_no_header bo : word_at bo c 0 0x950412de -> size c < 28 -> fault c (B "failed to read mo header") (missing c 4)
| F_major bo v : word_at bo c 0 0x950412de -> 28 <= size c -> half_at bo c 4 v -> 1 < v ->
    fault c (B "unsopported major version: " ++ dec v) NoCause
| F_minor bo u v : word_at bo c 0 0x950412de -> 28 <= size c -> half_at bo c 4 u -> u <= 1 -> half_at bo c 6 v -> 1 < v ->
    fault c (B "unsopported minor version: " ++ dec v) NoCause
| F_id_row bo n o t i : head_ok bo c n o t -> cut_row c o n i ->
    fault c (B "failed to read msg_id[" ++ dec i ++ B "] length & offset") (missing c (o + 8 * i))
| F_str_row bo n o t i : head_ok bo c n o t -> has_table c o n -> cut_row c t n i ->
    fault c (B "failed to read msg_str[" ++ dec i ++ B "] length & offset") (missing c (t + 8 * i))
| F_id bo n o t i l off : head_ok bo c n o t -> has_table c o n -> has_table c t n -> i < n ->
    (forall j, j < i -> good_row bo c (o + 8 * j) /\ good_row bo c (t + 8 * j)) ->
    row bo c (o + 8 * i) l off -> ~ fits c l off ->
    fault c (B "failed to read msg_id[" ++ dec i ++ B "]") (missing c off)
| F_str bo n o t i l off : head_ok bo c n o t -> has_table c o n -> has_table c t n -> i < n ->
    (forall j, j < i -> good_row bo c (o + 8 * j) /\ good_row bo c (t + 8 * j)) ->
    good_row bo c (o + 8 * i) -> row bo c (t + 8 * i) l off -> ~ fits c l off ->
    fault c (B "failed to read msg_str[" ++ dec i ++ B "]") (missing c off).

(** the text of the error *)
Definition told (m : bytes) (r : reason) : bytes :=
  B "read mo: " ++ m ++ match r with NoCause => [] | Nothing => B ": EOF" | Too_little => B ": unexpected EOF" end.

(** the errors that exist before, and how fmt prints *)
Record mo_settings {A} (print : spec -> arg (val A) -> bytes) (err_read_mo eof unexpected_eof : err) (next : nat) : Prop := {
  ms_print : forall e, print (plain 119) (VOther (VErr e)) = e_msg e;
  ms_int : forall n, print (plain 118) (VInt (Z.of_N n)) = dec n;
  ms_read : plain_error err_read_mo (B "read mo");
  ms_eof : plain_error eof (B "EOF");
  ms_ueof : plain_error unexpected_eof (B "unexpected EOF");
  ms_differ : NoDup (map e_ident [err_read_mo; eof; unexpected_eof]);
  ms_older : forall e, In e [err_read_mo; eof; unexpected_eof] -> (e_ident e < next)%nat
}.
