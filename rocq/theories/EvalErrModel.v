(** Model of what [plurals.Eval] returns, value and error, also for texts its
    recogniser reports errors for: /repo/plurals/exp.go:15-47 with the listener of
    /repo/plurals/err.go. *)
From Verif Require Import GoStr GoFmt PluralModel AtnModel AtnSpec GenModel GenSpec ErrModel.
Local Open Scope Z_scope.

(** ** The walk as the list of its calls *)
(** a call of an exit method: what the method looks at *)
(* plurals/exp.go:76-91, 309-327 *)
Inductive call := ExitExp (prefix bop postfix : option gtok) | ExitPrimary (start : gtok) (text : bytes) | ExitStart.
(** the calls during a walk, in order *)
(* plurals/exp.go:45 *)
Fixpoint calls (t : tree) : list call :=
  match t with
  | Leaf _ => []
  | ExpContext pre bop post cs => flat_map calls cs ++ [ExitExp pre bop post]
  | PrimaryContext start cs => flat_map calls cs ++ [ExitPrimary start (flat_map get_text cs)]
  | StartContext cs => flat_map calls cs ++ [ExitStart]
  end.

(** ** What stands in the tree when the first error is met *)
(** The contexts finished before the first error stay where they are, so the walk
    begins with their calls; what the parser adds while it recovers is unknown.
    The parser is the one of PluralModel ([PropertiesGen.C90_model]: it is the
    generated one); [Broken l]: [l] are the calls for the contexts finished before
    the error *)
(* plural_parser.go:424-933, 1024-1093 *)
Inductive part := Whole (e : exp) (rest : list tok) | Broken (l : list call) | NoFuel.
(* plural_parser.go:424-503; as [PluralModel.pexp] *)
Fixpoint kexp (fuel : nat) (p : nat) (ts : list tok) {struct fuel} : part :=
  match fuel with
  | O => NoFuel
  | S f =>
      match ts with
      | [] => Broken []
      | KN :: r => kloop f p EVar r
      | KInt ds :: r => kloop f p (EInt ds) r
      | KLP :: r =>
          match kexp f 0 r with
          | Whole e (KRP :: r') => kloop f p (EParen e) r'
          | Whole e _ => Broken (calls (tree_of e))
          | Broken l => Broken l
          | NoFuel => NoFuel
          end
      | t :: r =>
          match pre_tok t with
          | Some (o, q) =>
              match kexp f q r with
              | Whole e r' => kloop f p (EPre o e) r'
              | x => x
              end
          | None => Broken []
          end
      end
  end
(* plural_parser.go:504-921; as [PluralModel.ploop] *)
with kloop (fuel : nat) (p : nat) (l : exp) (ts : list tok) {struct fuel} : part :=
  let after c := Broken (calls (tree_of l) ++ c) in
  match fuel with
  | O => NoFuel
  | S f =>
      match ts with
      | [] => Whole l []
      | KErr :: _ => after []
      | KQ :: r =>
          if Nat.leb p 1 then
            match kexp f 0 r with
            | Whole b (KColon :: r') =>
                match kexp f 1 r' with
                | Whole c r'' => kloop f p (ECond l b c) r''
                | Broken x => after (calls (tree_of b) ++ x)
                | NoFuel => NoFuel
                end
            | Whole b _ => after (calls (tree_of b))
            | Broken x => after x
            | NoFuel => NoFuel
            end
          else Whole l ts
      | t :: r =>
          match post_tok t with
          | Some o => if Nat.leb p 15 then kloop f p (EPost o l) r else Whole l ts
          | None =>
              match bin_tok t with
              | Some (o, k) =>
                  if Nat.leb p k then
                    match kexp f (S k) r with
                    | Whole b r' => kloop f p (EBin o l b) r'
                    | Broken x => after x
                    | NoFuel => NoFuel
                    end
                  else Whole l ts
              | None => Whole l ts
              end
          end
      end
  end.
(** the calls for what is finished before the first error in a text *)
(* plural_parser.go:240-258 *)
Definition finished (s : bytes) : list call :=
  match kexp (2 * length (lex s) + 2) 0 (lex s) with Broken l => l | _ => [] end.

(** ** Eval *)
(** The recogniser on a text: the texts of the reports to the listener, and the
    tree.  What it does with an expression is modelled in GenModel; for any other
    text it reports something and its tree is any with the finished contexts in
    front *)
(* plurals/exp.go:29-44, plurals/err.go:19-33 *)
Definition recognised (s : bytes) (reports : list bytes) (t : tree) : Prop :=
  match gen_parse s with
  | GOk t' _ => reports = [] /\ t = t'
  | GErr => reports <> [] /\ exists rest, calls t = finished s ++ rest
  | GFuel => False
  end.
Section Returned.
Context {A : Type}.
Variable print : spec -> arg (val A) -> bytes.
Variable as_int : arg (val A) -> option Z.
Variable extra : list (arg (val A)) -> bytes.
(** the named results of [Eval]: a panic leaves the value 0 and is turned into an
    error; [thrown] is the value of the panic, [next] the identity of the next
    error made *)
(* plurals/exp.go:15-47 *)
Definition returned (antlr : err) (next : nat) (thrown : val A) (s : bytes) (n : Z)
  (reports : list bytes) (t : tree) : Z * option err :=
  match assoc_bytes (remove_byte SP s) commons with
  | Some fun_ => (fun_ n, None)
  | None =>
      match gwalk n t ([], 0) with
      | Some (_, v) => (v, listen print as_int extra antlr next None reports)
      | None =>
          (0, Some (Errorf print as_int extra (next + 2 * length reports) (B "unexpected error: %v") [VOther thrown]))
      end
  end.
End Returned.
