(** Model of the generated parser, function by function, of the parse trees it
    builds and of the walk over them: /repo/plurals/parser/plural_parser.go and
    /repo/plurals/exp.go:29-46, 76-327.  PluralModel has the same as a parser
    written by hand; here the code consults the tables of AtnModel as the
    run-time library does. *)
From Verif Require Import GoStr PluralModel AtnModel.
Local Open Scope Z_scope.

(** ** The token stream (exp.go:37) *)
(** a token: its type and its text *)
(* plurals/exp.go:37, [antlr.Token] *)
Definition gtok := (Z * bytes)%type.
(** the tokens still to come; [None] is a place where no token can be read.
    Fetching it reports an error (exp.go:33-34), so what the lexer would go on
    with is left out *)
(* plurals/exp.go:37, [antlr.NewCommonTokenStream] *)
Definition stream := list (option gtok).
(* plurals/exp.go:31-37; the lexer is run as in [AtnModel.tokens_of] *)
Fixpoint stream_of (A : automaton) (fuel : nat) (rs : list Z) : stream :=
  match rs, fuel with
  | [], _ => []
  | _, O => [None]
  | _, S f =>
      match scan A (initial A) None 0 rs with
      | None => [None]
      | Some (ty, acts, n) =>
          if skips A acts then stream_of A f (skipn n rs)
          else Some (ty, flat_map (fun r => encode_rune (Z.to_N r)) (firstn n rs))
               :: stream_of A f (skipn n rs)
      end
  end.
(** [LA(1)]: the type of the next token, -1 at the end *)
(* plural_parser.go:444, 459, 542, 1033 *)
Definition la (ts : stream) : Z :=
  match ts with [] => -1 | Some (ty, _) :: _ => ty | None :: _ => 0 end.

(** ** What the run-time library reads off the table *)
(** the token type [k] can come next in state [s] of a rule entered with
    precedence [p]: [AtnModel.can_start], computed *)
(* plural_parser.go:439, 505, 509, 520, 525, 914, 918, 1028 *)
Fixpoint begins (A : automaton) (fuel : nat) (p s k : Z) : bool :=
  match fuel with
  | O => false
  | S f =>
      existsb (fun e =>
        if (e_kind e =? 1) || (e_kind e =? 6) then begins A f p (e_trg e) k
        else if e_kind e =? 10 then (p <=? e_a1 e) && begins A f p (e_trg e) k
        else if e_kind e =? 3 then begins A f (e_a3 e) (e_a1 e) k
        else reads A e k) (out A s)
  end.
(** the rule can end in state [s] without reading.  Simplified as [can_start]: no
    rule of the table can be empty *)
(* plural_parser.go:439, 505, 509, 520, 525, 914, 918, 1028 *)
Fixpoint leaves (A : automaton) (fuel : nat) (p s : Z) : bool :=
  match fuel with
  | O => false
  | S f =>
      is_stop A s ||
      existsb (fun e =>
        if (e_kind e =? 1) || (e_kind e =? 6) then leaves A f p (e_trg e)
        else if e_kind e =? 10 then (p <=? e_a1 e) && leaves A f p (e_trg e)
        else false) (out A s)
  end.
(** [GetErrorHandler().Sync]: the next token can come in state [s], or the rule
    can end there; precedences are not asked.  Otherwise an error is reported or
    set, as it is when the next token cannot be fetched *)
(* plural_parser.go:439, 505, 520, 914, 1028 *)
Definition sync (A : automaton) (s : Z) (ts : stream) : bool :=
  match ts with
  | None :: _ => false
  | _ => begins A (length (a_nodes A)) 0 s (la ts) || leaves A (length (a_nodes A)) 0 s
  end.
(** the place of the first element, from 1 on; 0 if there is none *)
(* plural_parser.go:509, 525, 918: alternatives are numbered from 1, 0 is
   [antlr.ATNInvalidAltNumber] *)
Fixpoint first_of {T} (f : T -> bool) (i : Z) (l : list T) : Z :=
  match l with [] => 0 | x :: r => if f x then i else first_of f (i + 1) r end.
(** [AdaptivePredict] for a decision in a rule entered with precedence [p]: the
    first alternative the next token can begin, else the first by which the rule
    can end.  Simplified: only one token is looked at.  By
    [C89_one_token_decides] no two alternatives can begin with the same token, so
    the library never looks further *)
(* plural_parser.go:509, 525, 918 *)
Definition predict (A : automaton) (d : nat) (p k : Z) : Z :=
  match nth_error (a_decisions A) d with
  | None => 0
  | Some s =>
      let a := first_of (fun e => begins A (length (a_nodes A)) p (e_trg e) k) 1 (out A s) in
      if a =? 0 then first_of (fun e => leaves A (length (a_nodes A)) p (e_trg e)) 1 (out A s)
      else a
  end.

(** ** Parse trees *)
(** a token, or the context of a rule with its children; an [ExpContext] has the
    labels [prefix], [bop] and [postfix], and of a [PrimaryContext] the first
    token is kept *)
(* plural_parser.go:172-236, 296-420, 952-1020 *)
Inductive tree :=
| Leaf (t : gtok)
| ExpContext (prefix bop postfix : option gtok) (children : list tree)
| PrimaryContext (start : gtok) (children : list tree)
| StartContext (children : list tree).

(** a successful step, an error reported to the listener, out of fuel *)
(* plural_parser.go:249-258, 924-933, 1084-1093: errors are reported at the end of
   a rule; the parser goes on, but Eval returns the error (exp.go:46) *)
Inductive gres (T : Type) := GOk (a : T) (rest : stream) | GErr | GFuel.
Arguments GOk {T}. Arguments GErr {T}. Arguments GFuel {T}.
(* plural_parser.go:472, 496, 555: one step after the other *)
Definition gbind {T U} (m : gres T) (f : T -> stream -> gres U) : gres U :=
  match m with GOk a r => f a r | GErr => GErr | GFuel => GFuel end.

(** [p.Match(k)] *)
(* plural_parser.go:730, 855, 869, 1038, 1050, 1061, 1072 *)
Definition match_ (k : Z) (ts : stream) : gres gtok :=
  match ts with
  | Some (ty, tx) :: r => if ty =? k then GOk (ty, tx) r else GErr
  | _ => GErr
  end.
(** a token of which [ok] holds, else [RecoverInline] reports an error *)
(* plural_parser.go:455-469, 479-493, 538-552 *)
Definition take (ok : Z -> bool) (ts : stream) : gres gtok :=
  match ts with
  | Some (ty, tx) :: r => if ok ty then GOk (ty, tx) r else GErr
  | _ => GErr
  end.
(** [(int64(_la) & ^0x3f) == 0 && ((int64(1)<<_la)&mask) != 0] *)
(* plural_parser.go:461, 544 *)
Definition in_mask (mask la : Z) : bool :=
  (Z.land la (Z.lnot 63) =? 0) && negb (Z.land (wrap64 (Z.shiftl 1 la)) mask =? 0).

(** [Primary]; [exp0] is the call [p.exp(0)] *)
(* plural_parser.go:1024-1093 *)
Definition primary (A : automaton) (exp0 : stream -> gres tree) (ts : stream) : gres tree :=
  if negb (sync A 68 ts) then GErr else
  if la ts =? 25 then
    gbind (match_ 25 ts) (fun l r =>
    gbind (exp0 r) (fun e r =>
    gbind (match_ 26 r) (fun c r =>
    GOk (PrimaryContext l [Leaf l; e; Leaf c]) r)))
  else if la ts =? 27 then
    gbind (match_ 27 ts) (fun t r => GOk (PrimaryContext t [Leaf t]) r)
  else if la ts =? 28 then
    gbind (match_ 28 ts) (fun t r => GOk (PrimaryContext t [Leaf t]) r)
  else GErr.

(** the cases 1 to 11 of the loop over operators: the number given to [Precpred],
    the operators, the argument of the recursive call *)
(* plural_parser.go:526-841, each case at the lines given *)
Definition bop_case (alt : Z) : option (Z * (Z -> bool) * Z) :=
  if alt =? 1 then Some (12, in_mask 896, 13)                                  (* 526-556 *)
  else if alt =? 2 then Some (11, fun k => (k =? 3) || (k =? 4), 12)           (* 558-588 *)
  else if alt =? 3 then Some (10, fun k => (k =? 10) || (k =? 11), 11)         (* 590-620 *)
  else if alt =? 4 then Some (9, fun k => (k =? 12) || (k =? 13), 10)          (* 622-652 *)
  else if alt =? 5 then Some (8, fun k => (k =? 14) || (k =? 15), 9)           (* 654-684 *)
  else if alt =? 6 then Some (7, fun k => (k =? 16) || (k =? 17), 8)           (* 686-716 *)
  else if alt =? 7 then Some (6, fun k => k =? 18, 7)                          (* 718-741 *)
  else if alt =? 8 then Some (5, fun k => k =? 19, 6)                          (* 743-766 *)
  else if alt =? 9 then Some (4, fun k => k =? 20, 5)                          (* 768-791 *)
  else if alt =? 10 then Some (3, fun k => k =? 21, 4)                         (* 793-816 *)
  else if alt =? 11 then Some (2, fun k => k =? 22, 3)                         (* 818-841 *)
  else None.
(** [p.Precpred(ctx, k)] in a rule entered with precedence [p] *)
(* plural_parser.go:531, 563, 848, 885 *)
Definition precpred (p k : Z) : bool := p <=? k.

(** [exp]: up to line 503, then the loop *)
(* plural_parser.go:424-503 *)
Fixpoint gexp (A : automaton) (fuel : nat) (p : Z) (ts : stream) {struct fuel} : gres tree :=
  match fuel with
  | O => GFuel
  | S f =>
      if negb (sync A 14 ts) then GErr else
      let k := la ts in
      if (k =? 25) || (k =? 27) || (k =? 28) then
        gbind (primary A (gexp A f 0) ts) (fun c r =>
        gloop A f p 59 (ExpContext None None None [c]) r)
      else if (k =? 1) || (k =? 2) || (k =? 3) || (k =? 4) then
        gbind (take (in_mask 30) ts) (fun t r =>
        gbind (gexp A f 14 r) (fun e r =>
        gloop A f p 59 (ExpContext (Some t) None None [Leaf t; e]) r))
      else if (k =? 5) || (k =? 6) then
        gbind (take (fun k => (k =? 5) || (k =? 6)) ts) (fun t r =>
        gbind (gexp A f 13 r) (fun e r =>
        gloop A f p 59 (ExpContext (Some t) None None [Leaf t; e]) r))
      else GErr
  end
(** the loop; [s] is the state set before [Sync] (59 first, then 61), [l] the
    context built so far, which becomes the first child of the next one
    ([PushNewRecursionContext]) *)
(* plural_parser.go:504-921 *)
with gloop (A : automaton) (fuel : nat) (p s : Z) (l : tree) (ts : stream) {struct fuel} : gres tree :=
  match fuel with
  | O => GFuel
  | S f =>
      if negb (sync A s ts) then GErr else
      let alt := predict A 2 p (la ts) in
      if alt =? 0 then GErr
      else if alt =? 2 then GOk l ts
      else if alt =? 1 then
        if negb (sync A 57 ts) then GErr else
        let b := predict A 1 p (la ts) in
        match bop_case b with
        | Some (q, ok, next) =>
            if negb (precpred p q) then GErr else
            gbind (take ok ts) (fun t r =>
            gbind (gexp A f next r) (fun e r =>
            gloop A f p 61 (ExpContext None (Some t) None [l; Leaf t; e]) r))
        | None =>
            if b =? 12 then
              if negb (precpred p 1) then GErr else
              gbind (match_ 23 ts) (fun t r =>
              gbind (gexp A f 0 r) (fun x r =>
              gbind (match_ 24 r) (fun c r =>
              gbind (gexp A f 1 r) (fun y r =>
              gloop A f p 61 (ExpContext None (Some t) None [l; Leaf t; x; Leaf c; y]) r))))
            else if b =? 13 then
              if negb (precpred p 15) then GErr else
              gbind (take (fun k => (k =? 1) || (k =? 2)) ts) (fun t r =>
              gloop A f p 61 (ExpContext None None (Some t) [l; Leaf t]) r)
            else if b =? 0 then GErr
            else gloop A f p 61 l ts
        end
      else gloop A f p 61 l ts
  end.
(** [Start_].  The fuel is enough: [PropertiesGen.C90_errors] *)
(* plural_parser.go:240-258 *)
Definition gstart (A : automaton) (ts : stream) : gres tree :=
  gbind (gexp A (2 * length ts + 2) 0 ts) (fun e r => GOk (StartContext [e]) r).

(** ** The walk *)
(** the texts of the cases; [None] is the default case, a panic *)
(* plurals/exp.go:99-122 *)
Definition prefix_case (t : bytes) : option preop :=
  assoc_bytes t [(B "+", PPlus); (B "-", PMinus); (B "++", PInc); (B "--", PDec);
                 (B "~", PCompl); (B "!", PNot)].
(* plurals/exp.go:131-271 *)
Definition bop_text_case (t : bytes) : option binop :=
  assoc_bytes t [(B "*", BMul); (B "/", BDiv); (B "%", BMod); (B "+", BAdd); (B "-", BSub);
                 (B ">>", BShr); (B "<<", BShl); (B ">", BGt); (B "<", BLt); (B ">=", BGe);
                 (B "<=", BLe); (B "==", BEq); (B "!=", BNe); (B "&", BAnd); (B "|", BOr);
                 (B "^", BXor); (B "&&", BLand); (B "||", BLor)].
(* plurals/exp.go:296-305 *)
Definition postfix_case (t : bytes) : option postop :=
  assoc_bytes t [(B "++", QInc); (B "--", QDec)].
(** [handleExpPrefix], [handleExpBop], [handleExpPostfix] *)
(* plurals/exp.go:93-123; the handlers are PluralModel's *)
Definition exit_prefix (o : option gtok) (s : stack) : option stack :=
  match o with
  | None => Some s
  | Some t => match prefix_case (snd t) with Some o => Some (handle_prefix o s) | None => None end
  end.
(* plurals/exp.go:125-288 *)
Definition exit_bop (o : option gtok) (s : stack) : option stack :=
  match o with
  | None => Some s
  | Some t =>
      match bop_text_case (snd t) with
      | Some o => handle_bop o s
      | None => if beq (snd t) (B "?") then Some (handle_cond s) else None
      end
  end.
(* plurals/exp.go:290-306 *)
Definition exit_postfix (o : option gtok) (s : stack) : option stack :=
  match o with
  | None => Some s
  | Some t => match postfix_case (snd t) with Some o => Some (handle_postfix o s) | None => None end
  end.
(* plurals/exp.go:17-21, 81-91: one step after the other; a panic ends them *)
Definition obind {T U} (m : option T) (f : T -> option U) : option U :=
  match m with Some a => f a | None => None end.
(* plurals/exp.go:81-91 *)
Definition exit_exp (pre bop post : option gtok) (s : stack) : option stack :=
  obind (exit_prefix pre s) (fun s => obind (exit_bop bop s) (fun s => exit_postfix post s)).
(** [GetText]: the texts of the tokens below, joined *)
(* plurals/exp.go:319, 326 *)
Fixpoint get_text (t : tree) : bytes :=
  match t with
  | Leaf t => snd t
  | ExpContext _ _ _ cs | PrimaryContext _ cs | StartContext cs => flat_map get_text cs
  end.
(* plurals/exp.go:309-327 *)
Definition exit_primary (n : Z) (start : gtok) (cs : list tree) (s : stack) : option stack :=
  if beq (snd start) (B "n") then Some (push s n)
  else if beq (snd start) (B "(") then Some s
  else match parse_int (flat_map get_text cs) with Some v => Some (push s v) | None => None end.
(** [ParseTreeWalkerDefault.Walk]: the children in turn, then the exit method.
    The state is the stack and the result; [None] is a panic *)
(* plurals/exp.go:45, 76-78 *)
Fixpoint gwalk (n : Z) (t : tree) (st : stack * Z) : option (stack * Z) :=
  let all := fix all (cs : list tree) (st : stack * Z) : option (stack * Z) :=
    match cs with [] => Some st | c :: r => obind (gwalk n c st) (fun st => all r st) end in
  match t with
  | Leaf _ => Some st
  | ExpContext pre bop post cs =>
      obind (all cs st) (fun st =>
      obind (exit_exp pre bop post (fst st)) (fun s => Some (s, snd st)))
  | PrimaryContext start cs =>
      obind (all cs st) (fun st =>
      obind (exit_primary n start cs (fst st)) (fun s => Some (s, snd st)))
  | StartContext cs =>
      obind (all cs st) (fun st => let (v, s) := pop (fst st) in Some (s, v))
  end.

(** ** Eval on the tables *)
(** the parse tree of a text, and what was not read *)
(* plurals/exp.go:29-44 *)
Definition gen_parse (s : bytes) : gres tree :=
  match decode lexer_table, decode parser_table with
  | Some L, Some P => gstart P (stream_of L (length (runes s)) (runes s))
  | _, _ => GErr
  end.
(* plurals/exp.go:15-47 *)
Definition gen_eval (s : bytes) (n : Z) : eres :=
  recovered
    match assoc_bytes (remove_byte SP s) commons with
    | Some fun_ => EvOk (fun_ n)
    | None =>
        match gen_parse s with
        | GOk t _ =>
            match gwalk n t ([], 0) with
            | Some (_, v) => EvOk v
            | None => EvPanic
            end
        | GErr => EvErr
        | GFuel => EvFuel
        end
    end.
