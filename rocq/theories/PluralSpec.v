(** Specification of plural expressions: grammar, maximal-munch lexing and
    value of a tree, written without the lexer, the parser and the stack machine
    of the model (only the types of tokens and trees are shared). *)
From Verif Require Import GoStr PluralModel.

(** ** Tokens as text *)
Definition text (t : tok) : bytes :=
  match t with
  | KInc => B "++" | KDec => B "--" | KPlus => B "+" | KMinus => B "-"
  | KTilde => B "~" | KBang => B "!" | KMul => B "*" | KDiv => B "/" | KMod => B "%"
  | KShr => B ">>" | KShl => B "<<" | KGt => B ">" | KLt => B "<" | KGe => B ">="
  | KLe => B "<=" | KEq => B "==" | KNe => B "!=" | KAnd => B "&" | KXor => B "^"
  | KOr => B "|" | KLand => B "&&" | KLor => B "||" | KQ => B "?" | KColon => B ":"
  | KLP => B "(" | KRP => B ")" | KN => B "n" | KInt ds => ds | KErr => []
  end.
Definition tok_ok (t : tok) : Prop :=
  match t with
  | KErr => False
  | KInt ds => ds <> [] /\ forall c, In c ds -> (48 <= code c <= 57)%N
  | _ => True
  end.
Definition blank (s : bytes) : Prop := forall c, In c s -> c = " "%char \/ c = "009"%char.

(** [layout ts s]: the text [s] consists of the tokens [ts] with any blanks and
    tabs between them, each token being the longest one possible at its place *)
Inductive layout : list tok -> bytes -> Prop :=
| L_nil s : blank s -> layout [] s
| L_cons b t ts s :
    blank b -> tok_ok t -> layout ts s ->
    (forall t' x, tok_ok t' -> text t ++ s = text t' ++ x -> length (text t') <= length (text t)) ->
    layout (t :: ts) (b ++ text t ++ s).

(** ** The grammar with one level per precedence: 1 is "?:", 2 is "||", ...,
    12 is "* / %", 13 are the prefix operators, 14 the postfix operators, 15
    primary expressions.  Binary operators are left-recursive at their level. *)
Inductive bin_level : tok -> binop -> nat -> Prop :=
| L_mul : bin_level KMul BMul 12 | L_div : bin_level KDiv BDiv 12
| L_mod : bin_level KMod BMod 12
| L_add : bin_level KPlus BAdd 11 | L_sub : bin_level KMinus BSub 11
| L_shr : bin_level KShr BShr 10 | L_shl : bin_level KShl BShl 10
| L_gt : bin_level KGt BGt 9 | L_lt : bin_level KLt BLt 9
| L_ge : bin_level KGe BGe 8 | L_le : bin_level KLe BLe 8
| L_eq : bin_level KEq BEq 7 | L_ne : bin_level KNe BNe 7
| L_and : bin_level KAnd BAnd 6 | L_xor : bin_level KXor BXor 5
| L_or : bin_level KOr BOr 4 | L_land : bin_level KLand BLand 3
| L_lor : bin_level KLor BLor 2.
Inductive pre_level : tok -> preop -> Prop :=
| P_plus : pre_level KPlus PPlus | P_minus : pre_level KMinus PMinus
| P_inc : pre_level KInc PInc | P_dec : pre_level KDec PDec
| P_compl : pre_level KTilde PCompl | P_not : pre_level KBang PNot.
Inductive post_level : tok -> postop -> Prop :=
| Q_inc : post_level KInc QInc | Q_dec : post_level KDec QDec.

Inductive gram : nat -> list tok -> exp -> Prop :=
| G_bin t o k w1 w2 a b :
    bin_level t o k -> gram k w1 a -> gram (S k) w2 b ->
    gram k (w1 ++ t :: w2) (EBin o a b)
| G_cond w1 w2 w3 a b c :
    gram 2 w1 a -> gram 1 w2 b -> gram 1 w3 c ->
    gram 1 (w1 ++ KQ :: w2 ++ KColon :: w3) (ECond a b c)
| G_pre t o w e : pre_level t o -> gram 13 w e -> gram 13 (t :: w) (EPre o e)
| G_post t o w e : post_level t o -> gram 14 w e -> gram 14 (w ++ [t]) (EPost o e)
| G_paren w e : gram 1 w e -> gram 15 (KLP :: w ++ [KRP]) (EParen e)
| G_var : gram 15 [KN] EVar
| G_int ds : gram 15 [KInt ds] (EInt ds)
| G_up k w e : 1 <= k -> k < 15 -> gram (S k) w e -> gram k w e.

(** ** Writing an abstract expression with the parentheses it needs *)
Definition level_of (e : exp) : nat :=
  match e with
  | EInt _ | EVar | EParen _ => 15
  | EPost _ _ => 14
  | EPre _ _ => 13
  | EBin o _ _ =>
      match o with
      | BMul | BDiv | BMod => 12 | BAdd | BSub => 11 | BShr | BShl => 10
      | BGt | BLt => 9 | BGe | BLe => 8 | BEq | BNe => 7 | BAnd => 6 | BXor => 5
      | BOr => 4 | BLand => 3 | BLor => 2
      end
  | ECond _ _ _ => 1
  end.
Definition paren_if (b : bool) (e : exp) : exp := if b then EParen e else e.
(** add parentheses around a sub-expression whose operator binds weaker than its
    place requires *)
Fixpoint parens (e : exp) : exp :=
  let fit k x := paren_if (Nat.ltb (level_of x) k) (parens x) in
  match e with
  | EInt ds => EInt ds
  | EVar => EVar
  | EParen e => EParen (parens e)
  | EPost o a => EPost o (fit 14 a)
  | EPre o a => EPre o (fit 13 a)
  | EBin o a b => EBin o (fit (level_of e) a) (fit (S (level_of e)) b)
  | ECond a b c => ECond (fit 2 a) (parens b) (parens c)
  end.
Fixpoint erase (e : exp) : exp :=
  match e with
  | EInt ds => EInt ds
  | EVar => EVar
  | EParen e => erase e
  | EPost o a => EPost o (erase a)
  | EPre o a => EPre o (erase a)
  | EBin o a b => EBin o (erase a) (erase b)
  | ECond a b c => ECond (erase a) (erase b) (erase c)
  end.
Definition pre_text (o : preop) : tok :=
  match o with PPlus => KPlus | PMinus => KMinus | PInc => KInc | PDec => KDec
  | PCompl => KTilde | PNot => KBang end.
Definition post_text (o : postop) : tok := match o with QInc => KInc | QDec => KDec end.
Definition bin_text (o : binop) : tok :=
  match o with
  | BMul => KMul | BDiv => KDiv | BMod => KMod | BAdd => KPlus | BSub => KMinus
  | BShr => KShr | BShl => KShl | BGt => KGt | BLt => KLt | BGe => KGe | BLe => KLe
  | BEq => KEq | BNe => KNe | BAnd => KAnd | BXor => KXor | BOr => KOr
  | BLand => KLand | BLor => KLor
  end.
(** the tokens of a tree, in order *)
Fixpoint yield (e : exp) : list tok :=
  match e with
  | EInt ds => [KInt ds]
  | EVar => [KN]
  | EParen e => KLP :: yield e ++ [KRP]
  | EPost o a => yield a ++ [post_text o]
  | EPre o a => pre_text o :: yield a
  | EBin o a b => yield a ++ bin_text o :: yield b
  | ECond a b c => yield a ++ KQ :: yield b ++ KColon :: yield c
  end.
(** every literal is a non-empty digit string *)
Fixpoint lits_ok (e : exp) : Prop :=
  match e with
  | EInt ds => tok_ok (KInt ds)
  | EVar => True
  | EParen a | EPost _ a | EPre _ a => lits_ok a
  | EBin _ a b => lits_ok a /\ lits_ok b
  | ECond a b c => lits_ok a /\ lits_ok b /\ lits_ok c
  end.

(** ** Value of a tree on wrapping 64-bit integers *)
Local Open Scope Z_scope.
Definition int64 (v : Z) : Prop := - 2 ^ 63 <= v < 2 ^ 63.
(** [v] is the 64-bit wrap-around of the exact result [z] *)
Definition wraps (z v : Z) : Prop := int64 v /\ exists k, v = z + k * 2 ^ 64.
Definition truth (P : Prop) (v : Z) : Prop := (P /\ v = 1) \/ (~ P /\ v = 0).

Inductive pre_val : preop -> Z -> Z -> Prop :=
| PV_plus x : pre_val PPlus x x
| PV_minus x v : wraps (- x) v -> pre_val PMinus x v
| PV_inc x v : wraps (x + 1) v -> pre_val PInc x v
| PV_dec x v : wraps (x - 1) v -> pre_val PDec x v
| PV_compl x : pre_val PCompl x (- x - 1)
| PV_not x v : truth (x <> 1) v -> pre_val PNot x v.
Inductive post_val : postop -> Z -> Z -> Prop :=
| QV_inc x v : wraps (x + 1) v -> post_val QInc x v
| QV_dec x v : wraps (x - 1) v -> post_val QDec x v.
(** truncated quotient and remainder: sign of the remainder is that of [l] *)
Definition quot_rem (l r q m : Z) : Prop :=
  l = q * r + m /\ Z.abs m < Z.abs r /\ 0 <= l * m.
(** bit [i] of a two's complement number *)
Definition bitwise (op : bool -> bool -> bool) (l r v : Z) : Prop :=
  forall i, 0 <= i -> Z.testbit v i = op (Z.testbit l i) (Z.testbit r i).
Inductive bin_val : binop -> Z -> Z -> Z -> Prop :=
| BV_mul l r v : wraps (l * r) v -> bin_val BMul l r v
| BV_div l r q m v : quot_rem l r q m -> wraps q v -> bin_val BDiv l r v
| BV_mod l r q m : quot_rem l r q m -> bin_val BMod l r m
| BV_add l r v : wraps (l + r) v -> bin_val BAdd l r v
| BV_sub l r v : wraps (l - r) v -> bin_val BSub l r v
| BV_shr l r v : 0 <= r -> v * 2 ^ r <= l < (v + 1) * 2 ^ r -> bin_val BShr l r v
| BV_shl l r v : 0 <= r -> wraps (l * 2 ^ r) v -> bin_val BShl l r v
| BV_gt l r v : truth (l > r) v -> bin_val BGt l r v
| BV_lt l r v : truth (l < r) v -> bin_val BLt l r v
| BV_ge l r v : truth (l >= r) v -> bin_val BGe l r v
| BV_le l r v : truth (l <= r) v -> bin_val BLe l r v
| BV_eq l r v : truth (l = r) v -> bin_val BEq l r v
| BV_ne l r v : truth (l <> r) v -> bin_val BNe l r v
| BV_and l r v : bitwise andb l r v -> bin_val BAnd l r v
| BV_or l r v : bitwise orb l r v -> bin_val BOr l r v
| BV_xor l r v : bitwise andb l r v -> bin_val BXor l r v   (* as the code does *)
| BV_land l r v : truth (l = 1 /\ r = 1) v -> bin_val BLand l r v
| BV_lor l r v : truth (l = 1 \/ r = 1) v -> bin_val BLor l r v.

(** value of a digit string *)
Fixpoint numeral (ds : bytes) : Z :=
  match ds with
  | [] => 0
  | c :: t => (Z.of_N (code c) - 48) * 10 ^ Z.of_nat (length t) + numeral t
  end.

Inductive val (n : Z) : exp -> Z -> Prop :=
| V_int ds : numeral ds < 2 ^ 63 -> val n (EInt ds) (numeral ds)
| V_var : val n EVar n
| V_paren e v : val n e v -> val n (EParen e) v
| V_post o e x v : val n e x -> post_val o x v -> val n (EPost o e) v
| V_pre o e x v : val n e x -> pre_val o x v -> val n (EPre o e) v
| V_bin o a b x y v : val n a x -> val n b y -> bin_val o x y v -> val n (EBin o a b) v
| V_cond_t a b c y z : val n a 1 -> val n b y -> val n c z -> val n (ECond a b c) y
| V_cond_f a b c x y z : val n a x -> x <> 1 -> val n b y -> val n c z -> val n (ECond a b c) z.

(** some operator faults: division by zero, negative shift count, literal too
    large; all operands are evaluated, also of && || ?: *)
Inductive faults (n : Z) : exp -> Prop :=
| F_int ds : 2 ^ 63 <= numeral ds -> faults n (EInt ds)
| F_paren e : faults n e -> faults n (EParen e)
| F_post o e : faults n e -> faults n (EPost o e)
| F_pre o e : faults n e -> faults n (EPre o e)
| F_bin_l o a b : faults n a -> faults n (EBin o a b)
| F_bin_r o a b : faults n b -> faults n (EBin o a b)
| F_div o a b : (o = BDiv \/ o = BMod) -> val n b 0 -> faults n (EBin o a b)
| F_sh o a b y : (o = BShr \/ o = BShl) -> val n b y -> y < 0 -> faults n (EBin o a b)
| F_cond_a a b c : faults n a -> faults n (ECond a b c)
| F_cond_b a b c : faults n b -> faults n (ECond a b c)
| F_cond_c a b c : faults n c -> faults n (ECond a b c).

(** ** Texts *)
(** the text as a whole is a well-formed plural expression with tree [e] *)
Definition wf_text (s : bytes) (e : exp) : Prop := exists ts, layout ts s /\ gram 1 ts e.

(** a token that continues a complete expression *)
Definition continues (t : tok) : Prop :=
  t = KQ \/ (exists o, post_level t o) \/ (exists o k, bin_level t o k).
(** [munch ts s r]: the text [s] begins with the tokens [ts] and blanks, each
    token the longest one possible at its place, and [r] remains *)
Inductive munch : list tok -> bytes -> bytes -> Prop :=
| M_nil s : munch [] s s
| M_cons b t ts s r :
    blank b -> tok_ok t -> munch ts s r ->
    (forall t' x, tok_ok t' -> text t ++ s = text t' ++ x -> length (text t') <= length (text t))%nat ->
    munch (t :: ts) (b ++ text t ++ s) r.
(** the text begins with a well-formed expression behind which there is nothing,
    or a token that does not continue it *)
Definition accepts (s : bytes) (e : exp) : Prop :=
  exists ts r, munch ts s r /\ gram 1 ts e
    /\ (blank r \/ exists t r', munch [t] r r' /\ ~ continues t).
