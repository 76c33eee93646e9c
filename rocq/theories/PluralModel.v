(** Model of package plurals: lexer, parser and evaluator of plural
    expressions (/repo/plurals). *)
From Verif Require Import GoStr.

(** ** Tokens: /repo/plurals/parser/plural_lexer.go:45-53 (literal names),
    /repo/plurals/plural.g4:11-29.  [KErr] marks a place where the lexer
    reports a token recognition error (exp.go:33-34 installs the listener). *)
Inductive tok :=
| KInc | KDec | KPlus | KMinus | KTilde | KBang | KMul | KDiv | KMod
| KShr | KShl | KGt | KLt | KGe | KLe | KEq | KNe | KAnd | KXor | KOr
| KLand | KLor | KQ | KColon | KLP | KRP | KN | KInt (ds : bytes) | KErr.

(** tokens of one character: plural.g4:12-27 *)
Definition one (c : ascii) : tok :=
  if Ascii.eqb c "+" then KPlus else if Ascii.eqb c "-" then KMinus
  else if Ascii.eqb c "~" then KTilde else if Ascii.eqb c "!" then KBang
  else if Ascii.eqb c "*" then KMul else if Ascii.eqb c "/" then KDiv
  else if Ascii.eqb c "%" then KMod else if Ascii.eqb c ">" then KGt
  else if Ascii.eqb c "<" then KLt else if Ascii.eqb c "&" then KAnd
  else if Ascii.eqb c "^" then KXor else if Ascii.eqb c "|" then KOr
  else if Ascii.eqb c "?" then KQ else if Ascii.eqb c ":" then KColon
  else if Ascii.eqb c "(" then KLP else if Ascii.eqb c ")" then KRP
  else if Ascii.eqb c "n" then KN else KErr.

(** tokens of two characters: plural.g4:12-25 *)
Definition two (c d : ascii) : option tok :=
  let is a b := Ascii.eqb c a && Ascii.eqb d b in
  if is "+"%char "+"%char then Some KInc else if is "-"%char "-"%char then Some KDec
  else if is ">"%char ">"%char then Some KShr else if is "<"%char "<"%char then Some KShl
  else if is ">"%char "="%char then Some KGe else if is "<"%char "="%char then Some KLe
  else if is "="%char "="%char then Some KEq else if is "!"%char "="%char then Some KNe
  else if is "&"%char "&"%char then Some KLand else if is "|"%char "|"%char then Some KLor
  else None.

(** WS: plural.g4:29 *)
Definition is_ws (c : ascii) : bool := Ascii.eqb c SP || Ascii.eqb c TAB.

(** The generated lexer (plural_lexer.go, serialized ATN of plural.g4): longest
    match; blanks and tabs skipped.  Simplified: works on bytes, whereas ANTLR
    works on code points; any byte >= 0x80 is an error token here and any
    non-ASCII code point is an error there.  After an error ANTLR may skip one
    more character; what follows an error never matters because the error is
    already recorded. *)
(* plurals/plural.g4:11-29, plurals/exp.go:30-34 *)
Fixpoint lex (s : bytes) : list tok :=
  match s with
  | [] => []
  | c :: t =>
      if is_ws c then lex t
      else if is_digit c then
        match t with
        | d :: _ =>
            if is_digit d then
              match lex t with
              | KInt ds :: r => KInt (c :: ds) :: r
              | r => r                                   (* unreachable *)
              end
            else KInt [c] :: lex t
        | [] => [KInt [c]]
        end
      else
        match t with
        | d :: t' =>
            match two c d with
            | Some k => k :: lex t'
            | None => one c :: lex t
            end
        | [] => [one c]
        end
  end.

(** ** Parse trees: plural.g4:9-27 ([ExpContext] with prefix/bop/postfix labels
    and [PrimaryContext], plural_parser.go:255-420, 925-1020) *)
Inductive preop := PPlus | PMinus | PInc | PDec | PCompl | PNot.
(* plural.g4:9-27, postfix *)
Inductive postop := QInc | QDec.
(* plural.g4:9-27, bop *)
Inductive binop :=
| BMul | BDiv | BMod | BAdd | BSub | BShr | BShl | BGt | BLt | BGe | BLe
| BEq | BNe | BAnd | BXor | BOr | BLand | BLor.
(* plural.g4:9-27, the alternatives of exp and primary *)
Inductive exp :=
| EInt (ds : bytes) | EVar | EParen (e : exp)
| EPost (o : postop) (e : exp) | EPre (o : preop) (e : exp)
| EBin (o : binop) (a b : exp) | ECond (a b c : exp).

(** prefix operators with the precedence passed to the recursive call:
    plural_parser.go:451-497 ([p.exp(14)], [p.exp(13)]) *)
Definition pre_tok (t : tok) : option (preop * nat) :=
  match t with
  | KPlus => Some (PPlus, 14) | KMinus => Some (PMinus, 14)
  | KInc => Some (PInc, 14) | KDec => Some (PDec, 14)
  | KTilde => Some (PCompl, 13) | KBang => Some (PNot, 13)
  | _ => None
  end.
(** binary operators with the precedence tested by [Precpred]:
    plural_parser.go:525-840; the right operand is parsed with one more *)
Definition bin_tok (t : tok) : option (binop * nat) :=
  match t with
  | KMul => Some (BMul, 12) | KDiv => Some (BDiv, 12) | KMod => Some (BMod, 12)
  | KPlus => Some (BAdd, 11) | KMinus => Some (BSub, 11)
  | KShr => Some (BShr, 10) | KShl => Some (BShl, 10)
  | KGt => Some (BGt, 9) | KLt => Some (BLt, 9)
  | KGe => Some (BGe, 8) | KLe => Some (BLe, 8)
  | KEq => Some (BEq, 7) | KNe => Some (BNe, 7)
  | KAnd => Some (BAnd, 6) | KXor => Some (BXor, 5) | KOr => Some (BOr, 4)
  | KLand => Some (BLand, 3) | KLor => Some (BLor, 2)
  | _ => None
  end.
(** postfix operators, [Precpred(15)]: plural_parser.go:883-912 *)
Definition post_tok (t : tok) : option postop :=
  match t with KInc => Some QInc | KDec => Some QDec | _ => None end.

(* what p.exp and Primary give: a tree and the remaining tokens, or a syntax error (plural_parser.go:424-1093) *)
Inductive pres (A : Type) := POk (a : A) (rest : list tok) | PErr | PFuel.
Arguments POk {A}. Arguments PErr {A}. Arguments PFuel {A}.

(** [p.exp(_p)] (plural_parser.go:424-922) and [Primary]
    (plural_parser.go:1024-1093).  [pexp] is the part up to line 503 followed by
    the loop [ploop] (lines 509-920).  A syntax error ends the parse here;
    ANTLR recovers and goes on, but the error is recorded (err.go:19-21) and
    Eval returns it.  [AdaptivePredict] is modelled as looking at one token: the
    loop goes on if the next token is an operator whose precedence predicate
    holds and otherwise exits. *)
Fixpoint pexp (fuel : nat) (p : nat) (ts : list tok) {struct fuel} : pres exp :=
  match fuel with
  | O => PFuel
  | S f =>
      match ts with
      | [] => PErr
      | KN :: r => ploop f p EVar r
      | KInt ds :: r => ploop f p (EInt ds) r
      | KLP :: r =>
          match pexp f 0 r with
          | POk e (KRP :: r') => ploop f p (EParen e) r'
          | POk _ _ => PErr
          | PErr => PErr
          | PFuel => PFuel
          end
      | t :: r =>
          match pre_tok t with
          | Some (o, q) =>
              match pexp f q r with
              | POk e r' => ploop f p (EPre o e) r'
              | PErr => PErr
              | PFuel => PFuel
              end
          | None => PErr
          end
      end
  end
with ploop (fuel : nat) (p : nat) (l : exp) (ts : list tok) {struct fuel} : pres exp :=
  match fuel with
  | O => PFuel
  | S f =>
      match ts with
      | [] => POk l []
      | KErr :: _ => PErr
      | KQ :: r =>
          if Nat.leb p 1 then
            match pexp f 0 r with
            | POk b (KColon :: r') =>
                match pexp f 1 r' with
                | POk c r'' => ploop f p (ECond l b c) r''
                | PErr => PErr
                | PFuel => PFuel
                end
            | POk _ _ => PErr
            | PErr => PErr
            | PFuel => PFuel
            end
          else POk l ts
      | t :: r =>
          match post_tok t with
          | Some o => if Nat.leb p 15 then ploop f p (EPost o l) r else POk l ts
          | None =>
              match bin_tok t with
              | Some (o, k) =>
                  if Nat.leb p k then
                    match pexp f (S k) r with
                    | POk b r' => ploop f p (EBin o l b) r'
                    | PErr => PErr
                    | PFuel => PFuel
                    end
                  else POk l ts
              | None => POk l ts
              end
          end
      end
  end.

(** [p.Start_()]: plural_parser.go:240-252, plural.g4:9.  No EOF is required, so
    what follows the expression is ignored. *)
Definition parse_start (ts : list tok) : pres exp := pexp (2 * length ts + 2) 0 ts.

(** ** The operand stack: /repo/plurals/stack.go:14-27; the error of [Pop] is
    always dropped by the callers *)
Definition stack := list Z.
(* stack.go:14-22 *)
Definition pop (s : stack) : Z * stack :=
  match s with [] => (0%Z, []) | v :: t => (v, t) end.
(* stack.go:25-27 *)
Definition push (s : stack) (v : Z) : stack := v :: s.

(* exp.go:50-53 and common.go:3-8 *)
Definition b2z (b : bool) : Z := if b then 1%Z else 0%Z.
(** /repo/plurals/exp.go:50-53 *)
Definition is_TRUE (z : Z) : bool := Z.eqb z 1.

(** /repo/plurals/exp.go:93-123 *)
Definition handle_prefix (o : preop) (s : stack) : stack :=
  match o with
  | PPlus => s
  | PMinus => let (num, s1) := pop s in push s1 (wrap64 (- num))
  | PInc => let (num, s1) := pop s in push s1 (wrap64 (num + 1))
  | PDec => let (num, s1) := pop s in push s1 (wrap64 (num - 1))
  | PCompl => let (num, s1) := pop s in push s1 (Z.lnot num)
  | PNot => let (num, s1) := pop s in push s1 (b2z (negb (is_TRUE num)))
  end.

(** Go's int64 operators; [None] is a run-time panic (division by zero,
    negative shift count).  [/] and [%] truncate; shift counts are not limited. *)
(* plurals/exp.go:138-143 *)
Definition go_div (l r : Z) : option Z := if Z.eqb r 0 then None else Some (wrap64 (Z.quot l r)).
(* plurals/exp.go:144-149 *)
Definition go_mod (l r : Z) : option Z := if Z.eqb r 0 then None else Some (Z.rem l r).
(* plurals/exp.go:162-167 *)
Definition go_shr (l r : Z) : option Z :=
  if Z.ltb r 0 then None
  else if Z.leb 64 r then Some (if Z.ltb l 0 then -1 else 0)%Z
  else Some (Z.shiftr l r).
(* plurals/exp.go:168-173 *)
Definition go_shl (l r : Z) : option Z :=
  if Z.ltb r 0 then None
  else if Z.leb 64 r then Some 0%Z
  else Some (wrap64 (Z.shiftl l r)).

(** /repo/plurals/exp.go:131-286 on the two popped operands; "^" does compute
    [left & right] (line 251) *)
Definition bop_value (o : binop) (left right : Z) : option Z :=
  match o with
  | BMul => Some (wrap64 (left * right))
  | BDiv => go_div left right
  | BMod => go_mod left right
  | BAdd => Some (wrap64 (left + right))
  | BSub => Some (wrap64 (left - right))
  | BShr => go_shr left right
  | BShl => go_shl left right
  | BGt => Some (b2z (Z.gtb left right))
  | BLt => Some (b2z (Z.ltb left right))
  | BGe => Some (b2z (Z.geb left right))
  | BLe => Some (b2z (Z.leb left right))
  | BEq => Some (b2z (Z.eqb left right))
  | BNe => Some (b2z (negb (Z.eqb left right)))
  | BAnd => Some (Z.land left right)
  | BOr => Some (Z.lor left right)
  | BXor => Some (Z.land left right)
  | BLand => Some (b2z (is_TRUE left && is_TRUE right))
  | BLor => Some (b2z (is_TRUE left || is_TRUE right))
  end.
(** /repo/plurals/exp.go:125-288 *)
Definition handle_bop (o : binop) (s : stack) : option stack :=
  let (right, s1) := pop s in
  let (left, s2) := pop s1 in
  match bop_value o left right with
  | Some v => Some (push s2 v)
  | None => None
  end.
(** case "?": /repo/plurals/exp.go:272-283 *)
Definition handle_cond (s : stack) : stack :=
  let (right, s1) := pop s in
  let (left, s2) := pop s1 in
  let (cond, s3) := pop s2 in
  push s3 (if is_TRUE cond then left else right).
(** /repo/plurals/exp.go:290-306 *)
Definition handle_postfix (o : postop) (s : stack) : stack :=
  let (num, s1) := pop s in
  push s1 (wrap64 (match o with QInc => num + 1 | QDec => num - 1 end)).

(** The walk (exp.go:45, [ParseTreeWalkerDefault.Walk]): children first, then
    [ExitExp] (exp.go:81-91) or [ExitPrimary] (exp.go:309-327).  [None] is a
    panic. *)
Fixpoint walk (n : Z) (e : exp) (s : stack) : option stack :=
  match e with
  | EVar => Some (push s n)
  | EInt ds => match parse_int ds with Some v => Some (push s v) | None => None end
  | EParen e => walk n e s
  | EPost o e => match walk n e s with Some s1 => Some (handle_postfix o s1) | None => None end
  | EPre o e => match walk n e s with Some s1 => Some (handle_prefix o s1) | None => None end
  | EBin o a b =>
      match walk n a s with
      | Some s1 => match walk n b s1 with Some s2 => handle_bop o s2 | None => None end
      | None => None
      end
  | ECond a b c =>
      match walk n a s with
      | Some s1 =>
          match walk n b s1 with
          | Some s2 =>
              match walk n c s2 with Some s3 => Some (handle_cond s3) | None => None end
          | None => None
          end
      | None => None
      end
  end.

(** ** The fast path: /repo/plurals/common.go:3-71 *)
Definition gi (b : bool) : Z := b2z b.
(* common.go:9-14 *)
Definition gif (b : bool) (t f : Z) : Z := if b then t else f.
(* n % 10 in common.go:18-71 *)
Definition rem10 (n : Z) : Z := Z.rem n 10.
(* n % 100 in common.go:18-71 *)
Definition rem100 (n : Z) : Z := Z.rem n 100.
Local Open Scope Z_scope.
(** the map [commons], common.go:18-71, one pair per entry *)
Definition commons : list (bytes * (Z -> Z)) :=
  [ (B "0", fun _ => 0);
    (B "n!=1", fun n => gi (negb (n =? 1)));
    (B "n>1", fun n => gi (n >? 1));
    (B "n%10==1&&n%100!=11?0:n!=0?1:2",
      fun n => gif ((rem10 n =? 1) && negb (rem100 n =? 11)) 0 (gif (negb (n =? 0)) 1 2));
    (B "n==1?0:n==2?1:2", fun n => gif (n =? 1) 0 (gif (n =? 2) 1 2));
    (B "n==1?0:(n==0||(n%100>0&&n%100<20))?1:2",
      fun n => gif (n =? 1) 0 (gif ((n =? 0) || ((rem100 n >? 0) && (rem100 n <? 20))) 1 2));
    (B "n%10==1&&n%100!=11?0:n%10>=2&&(n%100<10||n%100>=20)?1:2",
      fun n => gif ((rem10 n =? 1) && negb (rem100 n =? 11)) 0
                 (gif ((rem10 n >=? 2) && ((rem100 n <? 10) || (rem100 n >=? 20))) 1 2));
    (B "n%10==1&&n%100!=11?0:n%10>=2&&n%10<=4&&(n%100<10||n%100>=20)?1:2",
      fun n => gif ((rem10 n =? 1) && negb (rem100 n =? 11)) 0
                 (gif ((rem10 n >=? 2) && (rem10 n <=? 4)
                       && ((rem100 n <? 10) || (rem100 n >=? 20))) 1 2));
    (B "(n==1)?0:(n>=2&&n<=4)?1:2",
      fun n => gif (n =? 1) 0 (gif ((n >=? 2) && (n <=? 4)) 1 2));
    (B "n==1?0:n%10>=2&&n%10<=4&&(n%100<10||n%100>=20)?1:2",
      fun n => gif (n =? 1) 0
                 (gif ((rem10 n >=? 2) && (rem10 n <=? 4)
                       && ((rem100 n <? 10) || (rem100 n >=? 20))) 1 2));
    (B "n%100==1?0:n%100==2?1:n%100==3||n%100==4?2:3",
      fun n => gif (rem100 n =? 1) 0
                 (gif (rem100 n =? 2) 1 (gif ((rem100 n =? 3) || (rem100 n =? 4)) 2 3)));
    (B "n==0?0:n==1?1:n==2?2:n%100>=3&&n%100<=10?3:n%100>=11?4:5",
      fun n => gif (n =? 0) 0 (gif (n =? 1) 1 (gif (n =? 2) 2
                 (gif ((rem100 n >=? 3) && (rem100 n <=? 10)) 3
                   (gif (rem100 n >=? 11) 4 5))))) ].
(* the lookup in commons, exp.go:24 *)
Fixpoint assoc_bytes {A} (k : bytes) (l : list (bytes * A)) : option A :=
  match l with
  | [] => None
  | (k', v) :: r => if beq k k' then Some v else assoc_bytes k r
  end.
Local Close Scope Z_scope.

(** ** Eval: /repo/plurals/exp.go:15-47 *)
Inductive eres := EvOk (v : Z) | EvErr | EvPanic | EvFuel.
(** lines 29-46: lexer, parser, walk; [ExitStart] (exp.go:76-78) pops the result *)
Definition eval_general (s : bytes) (n : Z) : eres :=
  match parse_start (lex s) with
  | POk e _ =>
      match walk n e [] with
      | Some st => EvOk (fst (pop st))
      | None => EvPanic
      end
  | PErr => EvErr
  | PFuel => EvFuel
  end.
(** the deferred recover, lines 16-20 *)
Definition recovered (r : eres) : eres := match r with EvPanic => EvErr | r => r end.
(* exp.go:15-47 *)
Definition eval (s : bytes) (n : Z) : eres :=
  recovered
    match assoc_bytes (remove_byte SP s) commons with
    | Some fun_ => EvOk (fun_ n)
    | None => eval_general s n
    end.
