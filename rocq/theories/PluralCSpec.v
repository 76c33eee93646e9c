(** What C says about a plural expression (ISO C 6.5, long = 64 bits): grammar
    with one relational level, lazy && || ?:, any non-zero operand is true.
    Independent of the model; shares only the token and tree types and [layout]. *)
From Verif Require Import GoStr PluralModel PluralSpec.
Local Open Scope Z_scope.

Inductive c_bin : tok -> binop -> nat -> Prop :=
| CL_lor : c_bin KLor BLor 2 | CL_land : c_bin KLand BLand 3 | CL_or : c_bin KOr BOr 4
| CL_xor : c_bin KXor BXor 5 | CL_and : c_bin KAnd BAnd 6
| CL_eq : c_bin KEq BEq 7 | CL_ne : c_bin KNe BNe 7
| CL_gt : c_bin KGt BGt 8 | CL_lt : c_bin KLt BLt 8
| CL_ge : c_bin KGe BGe 8 | CL_le : c_bin KLe BLe 8
| CL_shr : c_bin KShr BShr 9 | CL_shl : c_bin KShl BShl 9
| CL_add : c_bin KPlus BAdd 10 | CL_sub : c_bin KMinus BSub 10
| CL_mul : c_bin KMul BMul 11 | CL_div : c_bin KDiv BDiv 11 | CL_mod : c_bin KMod BMod 11.
Inductive c_pre : tok -> preop -> Prop :=
| CP_plus : c_pre KPlus PPlus | CP_minus : c_pre KMinus PMinus
| CP_compl : c_pre KTilde PCompl | CP_not : c_pre KBang PNot.

(** Levels: 1 ?:, 2 ||, 3 &&, 4 |, 5 ^, 6 &, 7 == !=, 8 < > <= >=, 9 shifts,
    10 + -, 11 * / %, 12 unary, 13 primary.  ++ and -- are left out: they
    assign to their operand, which a plural expression must not do. *)
Inductive cgram : nat -> list tok -> exp -> Prop :=
| CG_bin t o k w1 w2 a b :
    c_bin t o k -> cgram k w1 a -> cgram (S k) w2 b -> cgram k (w1 ++ t :: w2) (EBin o a b)
| CG_cond w1 w2 w3 a b c :
    cgram 2 w1 a -> cgram 1 w2 b -> cgram 1 w3 c ->
    cgram 1 (w1 ++ KQ :: w2 ++ KColon :: w3) (ECond a b c)
| CG_pre t o w e : c_pre t o -> cgram 12 w e -> cgram 12 (t :: w) (EPre o e)
| CG_paren w e : cgram 1 w e -> cgram 13 (KLP :: w ++ [KRP]) (EParen e)
| CG_var : cgram 13 [KN] EVar
| CG_int ds : cgram 13 [KInt ds] (EInt ds)
| CG_up k w e : (1 <= k)%nat -> (k < 13)%nat -> cgram (S k) w e -> cgram k w e.
Definition c_text (s : bytes) (e : exp) : Prop := exists ts, layout ts s /\ cgram 1 ts e.

(** Value where C defines one; arithmetic results must be representable. *)
Inductive c_op : binop -> Z -> Z -> Z -> Prop :=
| CO_mul l r : int64 (l * r) -> c_op BMul l r (l * r)
| CO_div l r q m : quot_rem l r q m -> int64 q -> c_op BDiv l r q
| CO_mod l r q m : quot_rem l r q m -> int64 q -> c_op BMod l r m
| CO_add l r : int64 (l + r) -> c_op BAdd l r (l + r)
| CO_sub l r : int64 (l - r) -> c_op BSub l r (l - r)
| CO_shl l r : 0 <= l -> 0 <= r < 64 -> int64 (l * 2 ^ r) -> c_op BShl l r (l * 2 ^ r)
| CO_shr l r v : 0 <= l -> 0 <= r < 64 -> v * 2 ^ r <= l < (v + 1) * 2 ^ r -> c_op BShr l r v
| CO_gt l r v : truth (l > r) v -> c_op BGt l r v
| CO_lt l r v : truth (l < r) v -> c_op BLt l r v
| CO_ge l r v : truth (l >= r) v -> c_op BGe l r v
| CO_le l r v : truth (l <= r) v -> c_op BLe l r v
| CO_eq l r v : truth (l = r) v -> c_op BEq l r v
| CO_ne l r v : truth (l <> r) v -> c_op BNe l r v
| CO_and l r v : bitwise andb l r v -> c_op BAnd l r v
| CO_or l r v : bitwise orb l r v -> c_op BOr l r v
| CO_xor l r v : bitwise xorb l r v -> c_op BXor l r v.
Inductive cval (n : Z) : exp -> Z -> Prop :=
| C_int ds : numeral ds < 2 ^ 63 -> cval n (EInt ds) (numeral ds)
| C_var : cval n EVar n
| C_paren e v : cval n e v -> cval n (EParen e) v
| C_plus e x : cval n e x -> cval n (EPre PPlus e) x
| C_minus e x : cval n e x -> int64 (- x) -> cval n (EPre PMinus e) (- x)
| C_compl e x : cval n e x -> cval n (EPre PCompl e) (- x - 1)
| C_not e x v : cval n e x -> truth (x = 0) v -> cval n (EPre PNot e) v
| C_bin o a b x y v : cval n a x -> cval n b y -> c_op o x y v -> cval n (EBin o a b) v
| C_and_f a b : cval n a 0 -> cval n (EBin BLand a b) 0
| C_and_t a b x y v : cval n a x -> x <> 0 -> cval n b y -> truth (y <> 0) v -> cval n (EBin BLand a b) v
| C_or_t a b x : cval n a x -> x <> 0 -> cval n (EBin BLor a b) 1
| C_or_f a b y v : cval n a 0 -> cval n b y -> truth (y <> 0) v -> cval n (EBin BLor a b) v
| C_cond_t a b c x v : cval n a x -> x <> 0 -> cval n b v -> cval n (ECond a b c) v
| C_cond_f a b c v : cval n a 0 -> cval n c v -> cval n (ECond a b c) v.

(** ** The fragment on which the library agrees with C *)
(** the outermost operator yields 0 or 1 in C *)
Fixpoint boolean (e : exp) : Prop :=
  match e with
  | EParen e => boolean e
  | EPre PNot _ => True
  | EBin (BGt | BLt | BGe | BLe | BEq | BNe | BLand | BLor) _ _ => True
  | ECond _ b c => boolean b /\ boolean c
  | _ => False
  end.
(** conditions are boolean, and ^ does not occur *)
Fixpoint clean (e : exp) : Prop :=
  match e with
  | EInt _ | EVar => True
  | EParen a | EPost _ a => clean a
  | EPre o a => clean a /\ match o with PNot => boolean a | _ => True end
  | EBin o a b => clean a /\ clean b
      /\ match o with BLand | BLor => boolean a /\ boolean b | BXor => False | _ => True end
  | ECond a b c => clean a /\ boolean a /\ clean b /\ clean c
  end.
Definition is_ge_le (e : exp) : Prop := match e with EBin (BGe | BLe) _ _ => True | _ => False end.
(** no [a >= b < c] without parentheses *)
Fixpoint rel_plain (e : exp) : Prop :=
  match e with
  | EInt _ | EVar => True
  | EParen a | EPost _ a | EPre _ a => rel_plain a
  | EBin o a b => rel_plain a /\ rel_plain b
      /\ match o with BGt | BLt => ~ is_ge_le a | _ => True end
  | ECond a b c => rel_plain a /\ rel_plain b /\ rel_plain c
  end.
