(** Model of the serialized automata of the generated lexer and parser
    (/repo/plurals/parser/plural_lexer.go, plural_parser.go): the tables
    themselves, how they are read, and what the ANTLR run-time makes of them.
    The run-time is not in /repo: its parts used here are modelled after its
    documented behaviour (version 4 of the serialized format). *)
From Verif Require Import GoStr PluralModel.
Local Open Scope Z_scope.

(** the table of the lexer: plurals/parser/plural_lexer.go:61-118, number by number *)
Definition lexer_table : list Z :=
  [4; 0; 29; 135; 6; (-1); 2; 0; 7; 0; 2; 1; 7; 1; 2; 2; 7; 2; 2; 3; 7; 3; 2;
   4; 7; 4; 2; 5; 7; 5; 2; 6; 7; 6; 2; 7; 7; 7; 2; 8; 7; 8; 2; 9; 7; 9; 2;
   10; 7; 10; 2; 11; 7; 11; 2; 12; 7; 12; 2; 13; 7; 13; 2; 14; 7; 14; 2; 15;
   7; 15; 2; 16; 7; 16; 2; 17; 7; 17; 2; 18; 7; 18; 2; 19; 7; 19; 2; 20; 7;
   20; 2; 21; 7; 21; 2; 22; 7; 22; 2; 23; 7; 23; 2; 24; 7; 24; 2; 25; 7; 25;
   2; 26; 7; 26; 2; 27; 7; 27; 2; 28; 7; 28; 1; 0; 1; 0; 1; 0; 1; 1; 1; 1;
   1; 1; 1; 2; 1; 2; 1; 3; 1; 3; 1; 4; 1; 4; 1; 5; 1; 5; 1; 6; 1; 6; 1; 7;
   1; 7; 1; 8; 1; 8; 1; 9; 1; 9; 1; 9; 1; 10; 1; 10; 1; 10; 1; 11; 1; 11;
   1; 12; 1; 12; 1; 13; 1; 13; 1; 13; 1; 14; 1; 14; 1; 14; 1; 15; 1; 15; 1;
   15; 1; 16; 1; 16; 1; 16; 1; 17; 1; 17; 1; 18; 1; 18; 1; 19; 1; 19; 1; 20;
   1; 20; 1; 20; 1; 21; 1; 21; 1; 21; 1; 22; 1; 22; 1; 23; 1; 23; 1; 24; 1;
   24; 1; 25; 1; 25; 1; 26; 1; 26; 1; 27; 4; 27; 125; 8; 27; 11; 27; 12; 27;
   126; 1; 28; 4; 28; 130; 8; 28; 11; 28; 12; 28; 131; 1; 28; 1; 28; 0; 0;
   29; 1; 1; 3; 2; 5; 3; 7; 4; 9; 5; 11; 6; 13; 7; 15; 8; 17; 9; 19; 10; 21;
   11; 23; 12; 25; 13; 27; 14; 29; 15; 31; 16; 33; 17; 35; 18; 37; 19; 39;
   20; 41; 21; 43; 22; 45; 23; 47; 24; 49; 25; 51; 26; 53; 27; 55; 28; 57;
   29; 1; 0; 2; 1; 0; 48; 57; 2; 0; 9; 9; 32; 32; 136; 0; 1; 1; 0; 0; 0; 0;
   3; 1; 0; 0; 0; 0; 5; 1; 0; 0; 0; 0; 7; 1; 0; 0; 0; 0; 9; 1; 0; 0; 0; 0;
   11; 1; 0; 0; 0; 0; 13; 1; 0; 0; 0; 0; 15; 1; 0; 0; 0; 0; 17; 1; 0; 0; 0;
   0; 19; 1; 0; 0; 0; 0; 21; 1; 0; 0; 0; 0; 23; 1; 0; 0; 0; 0; 25; 1; 0; 0;
   0; 0; 27; 1; 0; 0; 0; 0; 29; 1; 0; 0; 0; 0; 31; 1; 0; 0; 0; 0; 33; 1; 0;
   0; 0; 0; 35; 1; 0; 0; 0; 0; 37; 1; 0; 0; 0; 0; 39; 1; 0; 0; 0; 0; 41; 1;
   0; 0; 0; 0; 43; 1; 0; 0; 0; 0; 45; 1; 0; 0; 0; 0; 47; 1; 0; 0; 0; 0; 49;
   1; 0; 0; 0; 0; 51; 1; 0; 0; 0; 0; 53; 1; 0; 0; 0; 0; 55; 1; 0; 0; 0; 0;
   57; 1; 0; 0; 0; 1; 59; 1; 0; 0; 0; 3; 62; 1; 0; 0; 0; 5; 65; 1; 0; 0; 0;
   7; 67; 1; 0; 0; 0; 9; 69; 1; 0; 0; 0; 11; 71; 1; 0; 0; 0; 13; 73; 1; 0;
   0; 0; 15; 75; 1; 0; 0; 0; 17; 77; 1; 0; 0; 0; 19; 79; 1; 0; 0; 0; 21; 82;
   1; 0; 0; 0; 23; 85; 1; 0; 0; 0; 25; 87; 1; 0; 0; 0; 27; 89; 1; 0; 0; 0;
   29; 92; 1; 0; 0; 0; 31; 95; 1; 0; 0; 0; 33; 98; 1; 0; 0; 0; 35; 101; 1;
   0; 0; 0; 37; 103; 1; 0; 0; 0; 39; 105; 1; 0; 0; 0; 41; 107; 1; 0; 0; 0;
   43; 110; 1; 0; 0; 0; 45; 113; 1; 0; 0; 0; 47; 115; 1; 0; 0; 0; 49; 117;
   1; 0; 0; 0; 51; 119; 1; 0; 0; 0; 53; 121; 1; 0; 0; 0; 55; 124; 1; 0; 0;
   0; 57; 129; 1; 0; 0; 0; 59; 60; 5; 43; 0; 0; 60; 61; 5; 43; 0; 0; 61; 2;
   1; 0; 0; 0; 62; 63; 5; 45; 0; 0; 63; 64; 5; 45; 0; 0; 64; 4; 1; 0; 0; 0;
   65; 66; 5; 43; 0; 0; 66; 6; 1; 0; 0; 0; 67; 68; 5; 45; 0; 0; 68; 8; 1;
   0; 0; 0; 69; 70; 5; 126; 0; 0; 70; 10; 1; 0; 0; 0; 71; 72; 5; 33; 0; 0;
   72; 12; 1; 0; 0; 0; 73; 74; 5; 42; 0; 0; 74; 14; 1; 0; 0; 0; 75; 76; 5;
   47; 0; 0; 76; 16; 1; 0; 0; 0; 77; 78; 5; 37; 0; 0; 78; 18; 1; 0; 0; 0;
   79; 80; 5; 62; 0; 0; 80; 81; 5; 62; 0; 0; 81; 20; 1; 0; 0; 0; 82; 83; 5;
   60; 0; 0; 83; 84; 5; 60; 0; 0; 84; 22; 1; 0; 0; 0; 85; 86; 5; 62; 0; 0;
   86; 24; 1; 0; 0; 0; 87; 88; 5; 60; 0; 0; 88; 26; 1; 0; 0; 0; 89; 90; 5;
   62; 0; 0; 90; 91; 5; 61; 0; 0; 91; 28; 1; 0; 0; 0; 92; 93; 5; 60; 0; 0;
   93; 94; 5; 61; 0; 0; 94; 30; 1; 0; 0; 0; 95; 96; 5; 61; 0; 0; 96; 97; 5;
   61; 0; 0; 97; 32; 1; 0; 0; 0; 98; 99; 5; 33; 0; 0; 99; 100; 5; 61; 0; 0;
   100; 34; 1; 0; 0; 0; 101; 102; 5; 38; 0; 0; 102; 36; 1; 0; 0; 0; 103; 104;
   5; 94; 0; 0; 104; 38; 1; 0; 0; 0; 105; 106; 5; 124; 0; 0; 106; 40; 1; 0;
   0; 0; 107; 108; 5; 38; 0; 0; 108; 109; 5; 38; 0; 0; 109; 42; 1; 0; 0; 0;
   110; 111; 5; 124; 0; 0; 111; 112; 5; 124; 0; 0; 112; 44; 1; 0; 0; 0; 113;
   114; 5; 63; 0; 0; 114; 46; 1; 0; 0; 0; 115; 116; 5; 58; 0; 0; 116; 48;
   1; 0; 0; 0; 117; 118; 5; 40; 0; 0; 118; 50; 1; 0; 0; 0; 119; 120; 5; 41;
   0; 0; 120; 52; 1; 0; 0; 0; 121; 122; 5; 110; 0; 0; 122; 54; 1; 0; 0; 0;
   123; 125; 7; 0; 0; 0; 124; 123; 1; 0; 0; 0; 125; 126; 1; 0; 0; 0; 126;
   124; 1; 0; 0; 0; 126; 127; 1; 0; 0; 0; 127; 56; 1; 0; 0; 0; 128; 130; 7;
   1; 0; 0; 129; 128; 1; 0; 0; 0; 130; 131; 1; 0; 0; 0; 131; 129; 1; 0; 0;
   0; 131; 132; 1; 0; 0; 0; 132; 133; 1; 0; 0; 0; 133; 134; 6; 28; 0; 0; 134;
   58; 1; 0; 0; 0; 3; 0; 126; 131; 1; 6; 0; 0].
(** the table of the parser: plurals/parser/plural_parser.go:48-82, number by number *)
Definition parser_table : list Z :=
  [4; 1; 29; 71; 2; 0; 7; 0; 2; 1; 7; 1; 2; 2; 7; 2; 1; 0; 1; 0; 1; 1; 1;
   1; 1; 1; 1; 1; 1; 1; 1; 1; 3; 1; 15; 8; 1; 1; 1; 1; 1; 1; 1; 1; 1; 1; 1;
   1; 1; 1; 1; 1; 1; 1; 1; 1; 1; 1; 1; 1; 1; 1; 1; 1; 1; 1; 1; 1; 1; 1; 1;
   1; 1; 1; 1; 1; 1; 1; 1; 1; 1; 1; 1; 1; 1; 1; 1; 1; 1; 1; 1; 1; 1; 1; 1;
   1; 1; 1; 1; 1; 1; 1; 1; 1; 1; 1; 1; 1; 1; 1; 1; 1; 1; 1; 1; 1; 1; 1; 1;
   5; 1; 58; 8; 1; 10; 1; 12; 1; 61; 9; 1; 1; 2; 1; 2; 1; 2; 1; 2; 1; 2; 1;
   2; 3; 2; 69; 8; 2; 1; 2; 0; 1; 2; 3; 0; 2; 4; 0; 9; 1; 0; 1; 4; 1; 0; 5;
   6; 1; 0; 7; 9; 1; 0; 3; 4; 1; 0; 10; 11; 1; 0; 12; 13; 1; 0; 14; 15; 1;
   0; 16; 17; 1; 0; 1; 2; 84; 0; 6; 1; 0; 0; 0; 2; 14; 1; 0; 0; 0; 4; 68;
   1; 0; 0; 0; 6; 7; 3; 2; 1; 0; 7; 1; 1; 0; 0; 0; 8; 9; 6; 1; (-1); 0; 9; 15;
   3; 4; 2; 0; 10; 11; 7; 0; 0; 0; 11; 15; 3; 2; 1; 14; 12; 13; 7; 1; 0; 0;
   13; 15; 3; 2; 1; 13; 14; 8; 1; 0; 0; 0; 14; 10; 1; 0; 0; 0; 14; 12; 1;
   0; 0; 0; 15; 59; 1; 0; 0; 0; 16; 17; 10; 12; 0; 0; 17; 18; 7; 2; 0; 0;
   18; 58; 3; 2; 1; 13; 19; 20; 10; 11; 0; 0; 20; 21; 7; 3; 0; 0; 21; 58;
   3; 2; 1; 12; 22; 23; 10; 10; 0; 0; 23; 24; 7; 4; 0; 0; 24; 58; 3; 2; 1;
   11; 25; 26; 10; 9; 0; 0; 26; 27; 7; 5; 0; 0; 27; 58; 3; 2; 1; 10; 28; 29;
   10; 8; 0; 0; 29; 30; 7; 6; 0; 0; 30; 58; 3; 2; 1; 9; 31; 32; 10; 7; 0;
   0; 32; 33; 7; 7; 0; 0; 33; 58; 3; 2; 1; 8; 34; 35; 10; 6; 0; 0; 35; 36;
   5; 18; 0; 0; 36; 58; 3; 2; 1; 7; 37; 38; 10; 5; 0; 0; 38; 39; 5; 19; 0;
   0; 39; 58; 3; 2; 1; 6; 40; 41; 10; 4; 0; 0; 41; 42; 5; 20; 0; 0; 42; 58;
   3; 2; 1; 5; 43; 44; 10; 3; 0; 0; 44; 45; 5; 21; 0; 0; 45; 58; 3; 2; 1;
   4; 46; 47; 10; 2; 0; 0; 47; 48; 5; 22; 0; 0; 48; 58; 3; 2; 1; 3; 49; 50;
   10; 1; 0; 0; 50; 51; 5; 23; 0; 0; 51; 52; 3; 2; 1; 0; 52; 53; 5; 24; 0;
   0; 53; 54; 3; 2; 1; 1; 54; 58; 1; 0; 0; 0; 55; 56; 10; 15; 0; 0; 56; 58;
   7; 8; 0; 0; 57; 16; 1; 0; 0; 0; 57; 19; 1; 0; 0; 0; 57; 22; 1; 0; 0; 0;
   57; 25; 1; 0; 0; 0; 57; 28; 1; 0; 0; 0; 57; 31; 1; 0; 0; 0; 57; 34; 1;
   0; 0; 0; 57; 37; 1; 0; 0; 0; 57; 40; 1; 0; 0; 0; 57; 43; 1; 0; 0; 0; 57;
   46; 1; 0; 0; 0; 57; 49; 1; 0; 0; 0; 57; 55; 1; 0; 0; 0; 58; 61; 1; 0; 0;
   0; 59; 57; 1; 0; 0; 0; 59; 60; 1; 0; 0; 0; 60; 3; 1; 0; 0; 0; 61; 59; 1;
   0; 0; 0; 62; 63; 5; 25; 0; 0; 63; 64; 3; 2; 1; 0; 64; 65; 5; 26; 0; 0;
   65; 69; 1; 0; 0; 0; 66; 69; 5; 27; 0; 0; 67; 69; 5; 28; 0; 0; 68; 62; 1;
   0; 0; 0; 68; 66; 1; 0; 0; 0; 68; 67; 1; 0; 0; 0; 69; 5; 1; 0; 0; 0; 4;
   14; 57; 59; 68].
(** names of the fixed tokens, by type number: plural_lexer.go:45-49 and, the
    same, plural_parser.go:34-38 *)
Definition literal_names : list bytes :=
  [[]; B "'++'"; B "'--'"; B "'+'"; B "'-'"; B "'~'"; B "'!'"; B "'*'"; B "'/'"; B "'%'";
   B "'>>'"; B "'<<'"; B "'>'"; B "'<'"; B "'>='"; B "'<='"; B "'=='"; B "'!='"; B "'&'";
   B "'^'"; B "'|'"; B "'&&'"; B "'||'"; B "'?'"; B "':'"; B "'('"; B "')'"; B "'n'"].

(** ** Reading a table ([antlr.NewATNDeserializer(nil).Deserialize], called at
    plural_lexer.go:119-120 and plural_parser.go:82-83) *)
(** a transition: from, to, kind, three arguments *)
(* plural_lexer.go:82-116, plural_parser.go:56-80: the last part of the tables *)
Record edge := Edge { e_src : Z; e_trg : Z; e_kind : Z; e_a1 : Z; e_a2 : Z; e_a3 : Z }.
(** a state: its kind and the rule it belongs to *)
(* plural_lexer.go:62-74, plural_parser.go:49-54: the first part of the tables *)
Record node := Node { n_kind : Z; n_rule : Z }.
(** what a table holds; the numbers that tell where a block ends and where a
    loop goes back are read over, as is everything the run-time uses only for
    speed *)
(* plural_lexer.go:119-120, plural_parser.go:82-83 *)
Record automaton := Automaton {
  a_nodes : list node;
  a_rules : list (Z * Z);             (* first state and token type of each rule *)
  a_modes : list Z;
  a_sets : list (list (Z * Z));
  a_edges : list edge;
  a_decisions : list Z;
  a_actions : list Z }.

(* as all of the following, part of Deserialize at plural_lexer.go:120, plural_parser.go:83 *)
Definition reader (A : Type) := list Z -> option (A * list Z).
(* reads one number *)
(* plural_lexer.go:120 *)
Definition num : reader Z := fun l => match l with [] => None | x :: r => Some (x, r) end.
(* plural_lexer.go:120 *)
Definition bind {A C} (p : reader A) (f : A -> reader C) : reader C :=
  fun l => match p l with None => None | Some (a, r) => f a r end.
(* plural_lexer.go:120 *)
Definition ret {A} (a : A) : reader A := fun l => Some (a, l).
(* plural_lexer.go:120 *)
Fixpoint times {A} (n : nat) (p : reader A) : reader (list A) :=
  match n with
  | O => ret []
  | S m => bind p (fun a => bind (times m p) (fun l => ret (a :: l)))
  end.
(** a count followed by that many items *)
(* plural_lexer.go:120 *)
Definition counted {A} (p : reader A) : reader (list A) :=
  bind num (fun n => times (Z.to_nat n) p).
(** a state: kind and rule, and for the kinds 3, 4, 5 (start of a block) and 12
    (end of a loop) one number more *)
(* plural_lexer.go:120 *)
Definition read_node : reader node :=
  bind num (fun k =>
    if k =? 0 then ret (Node 0 0)
    else bind num (fun r =>
      if (k =? 3) || (k =? 4) || (k =? 5) || (k =? 12)
      then bind num (fun _ => ret (Node k r)) else ret (Node k r))).
(* plural_lexer.go:120 *)
Definition read_rule (lexer : bool) : reader (Z * Z) :=
  bind num (fun s => if lexer then bind num (fun t => ret (s, t)) else ret (s, 0)).
(** a set of numbers, as intervals; none of the tables has one with the end of
    the input in it, and a table with one is refused here *)
(* plural_lexer.go:120 *)
Definition read_set : reader (list (Z * Z)) :=
  bind num (fun n => bind num (fun eof =>
    if eof =? 0
    then times (Z.to_nat n) (bind num (fun a => bind num (fun b => ret (a, b))))
    else fun _ => None)).
(* plural_lexer.go:120 *)
Definition read_edge : reader edge :=
  bind num (fun s => bind num (fun t => bind num (fun k =>
    bind num (fun a => bind num (fun b => bind num (fun c => ret (Edge s t k a b c))))))).
(* plural_lexer.go:120 *)
Definition read_action : reader Z :=
  bind num (fun k => bind num (fun _ => bind num (fun _ => ret k))).
(** the whole table: version 4, lexer (0) or parser (1), largest token type,
    states, lists of non-greedy and of precedence states, rules, modes, sets,
    transitions, decisions and, for a lexer, actions.  Simplified: a table with
    a non-greedy state is refused, as none of the two has one *)
(* plural_lexer.go:120, plural_parser.go:83 *)
Definition decode (l : list Z) : option automaton :=
  match
    bind num (fun version => bind num (fun kind => bind num (fun _ =>
    bind (counted read_node) (fun nodes =>
    bind (counted num) (fun lazy =>
    bind (counted num) (fun _ =>
    bind (counted (read_rule (kind =? 0))) (fun rules =>
    bind (counted num) (fun modes =>
    bind (counted read_set) (fun sets =>
    bind (counted read_edge) (fun edges =>
    bind (counted num) (fun decisions =>
    bind (if kind =? 0 then counted read_action else ret []) (fun actions =>
    ret (version, lazy, Automaton nodes rules modes sets edges decisions actions))))))))))))) l
  with
  | Some ((4, [], a), []) => Some a
  | _ => None
  end.

(** the transitions of a state, in the order of the table *)
(* plural_lexer.go:120 *)
Definition out (A : automaton) (s : Z) : list edge :=
  filter (fun e => e_src e =? s) (a_edges A).
(** a state that ends its rule (kind 7) *)
(* plural_lexer.go:120 *)
Definition is_stop (A : automaton) (s : Z) : bool :=
  match nth_error (a_nodes A) (Z.to_nat s) with Some n => n_kind n =? 7 | None => false end.
(** a transition that reads nothing: kinds 1 (empty), 3 (rule), 4 (predicate),
    6 (action), 10 (precedence) *)
(* plural_lexer.go:120 *)
Definition is_empty (e : edge) : bool :=
  (e_kind e =? 1) || (e_kind e =? 3) || (e_kind e =? 4) || (e_kind e =? 6) || (e_kind e =? 10).
(** the transition reads the number [r]: kinds 2 (range), 5 (one number) and 7
    (set); the tables have none of the kinds 8 (all but a set) and 9 (any) *)
(* plural_lexer.go:120 *)
Definition reads (A : automaton) (e : edge) (r : Z) : bool :=
  if e_kind e =? 5 then e_a1 e =? r
  else if e_kind e =? 2 then (e_a1 e <=? r) && (r <=? e_a2 e)
  else if e_kind e =? 7 then
    existsb (fun i => (fst i <=? r) && (r <=? snd i)) (nth (Z.to_nat (e_a1 e)) (a_sets A) [])
  else false.

(** ** The lexer run on a table ([lexer.NextToken], called by the token stream
    made at plurals/exp.go:37) *)
(** where the lexer may be: a state, and the actions met on the way to it *)
(* plurals/exp.go:31 *)
Definition place := (Z * list Z)%type.
(** the places reached from one without reading: the end of a rule, or a state
    that can read; in the order of the transitions.  [fuel] is the number of
    states: no empty transition is taken twice *)
(* plurals/exp.go:31 *)
Fixpoint closure (A : automaton) (fuel : nat) (pl : place) : list place :=
  match fuel with
  | O => []
  | S f =>
      let (s, acts) := pl in
      if is_stop A s then [pl]
      else (if forallb is_empty (out A s) then [] else [pl])
           ++ flat_map (fun e =>
                if e_kind e =? 1 then closure A f (e_trg e, acts)
                else if e_kind e =? 6 then closure A f (e_trg e, acts ++ [e_a2 e])
                else []) (out A s)
  end.
(** the places after reading [r] *)
(* plurals/exp.go:31 *)
Definition reach (A : automaton) (ps : list place) (r : Z) : list place :=
  flat_map (fun pl =>
    flat_map (fun e => if reads A e r
                       then closure A (length (a_nodes A)) (e_trg e, snd pl) else [])
      (out A (fst pl))) ps.
(** the first place that ends a rule gives the token type and the actions *)
(* plurals/exp.go:31 *)
Definition accepting (A : automaton) (ps : list place) : option (Z * list Z) :=
  match find (fun pl => is_stop A (fst pl)) ps with
  | Some (s, acts) =>
      match nth_error (a_nodes A) (Z.to_nat s) with
      | Some n =>
          match nth_error (a_rules A) (Z.to_nat (n_rule n)) with
          | Some r => Some (snd r, acts)
          | None => None
          end
      | None => None
      end
  | None => None
  end.
(** reads on as long as some transition can; the last acceptance counts.  [n] is
    the number of characters read so far *)
(* plurals/exp.go:31 *)
Fixpoint scan (A : automaton) (ps : list place) (best : option (Z * list Z * nat)) (n : nat)
    (rs : list Z) : option (Z * list Z * nat) :=
  match rs with
  | [] => best
  | r :: t =>
      match reach A ps r with
      | [] => best
      | ps' =>
          scan A ps' (match accepting A ps' with
                      | Some (ty, acts) => Some (ty, acts, S n)
                      | None => best
                      end) (S n) t
      end
  end.
(** the first place of the lexer: the start state of its only mode *)
(* plurals/exp.go:31 *)
Definition initial (A : automaton) : list place :=
  match a_modes A with
  | m :: _ => closure A (length (a_nodes A)) (m, [])
  | [] => []
  end.
(** an action of kind 6 (skip) makes the lexer drop the token *)
(* plurals/exp.go:31 *)
Definition skips (A : automaton) (acts : list Z) : bool :=
  existsb (fun i => nth (Z.to_nat i) (a_actions A) 0 =? 6) acts.
(** the tokens of an input with their types; [None] if at some place no token
    can be read, which is reported to the error listener (exp.go:33-34).
    Simplified: nothing is said of the tokens after such a place, since the
    error is already recorded and Eval returns it *)
(* plurals/exp.go:31-37 *)
Fixpoint tokens_of (A : automaton) (fuel : nat) (rs : list Z) : option (list (Z * list Z)) :=
  match rs, fuel with
  | [], _ => Some []
  | _, O => None
  | _, S f =>
      match scan A (initial A) None 0 rs with
      | None => None
      | Some (ty, acts, n) =>
          match tokens_of A f (skipn n rs) with
          | None => None
          | Some l => if skips A acts then Some l else Some ((ty, firstn n rs) :: l)
          end
      end
  end.
(** [antlr.NewInputStream]: the text as code points, each invalid byte being
    U+FFFD *)
(* plurals/exp.go:30 *)
Fixpoint runes_fuel (fuel : nat) (s : bytes) : list Z :=
  match fuel, s with
  | _, [] => []
  | O, _ => []
  | S f, _ => let (r, w) := decode_rune s in Z.of_N r :: runes_fuel f (skipn w s)
  end.
(* plurals/exp.go:30 *)
Definition runes (s : bytes) : list Z := runes_fuel (length s) s.
(** all of it: the token types and texts the parser is given *)
(* plurals/exp.go:30-37 *)
Definition table_lex (s : bytes) : option (list (Z * list Z)) :=
  match decode lexer_table with
  | Some A => tokens_of A (length (runes s)) (runes s)
  | None => None
  end.

(** ** What the table of the parser describes *)
(** [stop] is the state that ends rule [r] *)
(* plural_parser.go:83 *)
Definition ends (A : automaton) (r stop : Z) : Prop :=
  exists i n, nth_error (a_nodes A) i = Some n /\ n_kind n = 7 /\ n_rule n = r /\
    stop = Z.of_nat i.
(** [path A p s w u]: in a rule entered with precedence [p], from state [s] the
    automaton can come to state [u] reading exactly the token types [w].  A
    precedence transition (kind 10) needs its number to be at least [p]; a rule
    transition (kind 3) goes through the rule beginning at its first argument
    with its third argument as precedence, and ends where that rule ends *)
(* plural_parser.go:83; generated calls p.exp(..), p.Precpred at plural_parser.go:424-922 *)
Inductive path (A : automaton) : Z -> Z -> list Z -> Z -> Prop :=
| W_stay p s : path A p s [] s
| W_empty p e w u :
    In e (a_edges A) -> e_kind e = 1 \/ e_kind e = 6 ->
    path A p (e_trg e) w u -> path A p (e_src e) w u
| W_read p e k w u :
    In e (a_edges A) -> reads A e k = true ->
    path A p (e_trg e) w u -> path A p (e_src e) (k :: w) u
| W_prec p e w u :
    In e (a_edges A) -> e_kind e = 10 -> p <= e_a1 e ->
    path A p (e_trg e) w u -> path A p (e_src e) w u
| W_rule p e w1 w2 stop u :
    In e (a_edges A) -> e_kind e = 3 ->
    ends A (e_a2 e) stop -> path A (e_a3 e) (e_a1 e) w1 stop ->
    path A p (e_trg e) w2 u -> path A p (e_src e) (w1 ++ w2) u.
(** the sequences of token types the rule [r] of the table stands for, entered
    with precedence [p] *)
(* plural_parser.go:83 *)
Definition describes (A : automaton) (r : nat) (p : Z) (w : list Z) : Prop :=
  exists s t stop, nth_error (a_rules A) r = Some (s, t) /\ ends A (Z.of_nat r) stop /\
    path A p s w stop.
(** the token type [k] can come next in state [s] of a rule entered with
    precedence [p], before the rule ends.  Simplified: a rule that can be empty
    would let the token come after it; no rule of the table can *)
(* plural_parser.go:83, consulted by AdaptivePredict at plural_parser.go:509,525,918; the
   decisions at plural_parser.go:444 and 1033 are generated as a switch on the next token *)
Inductive can_start (A : automaton) : Z -> Z -> Z -> Prop :=
| S_read p e k : In e (a_edges A) -> reads A e k = true -> can_start A p (e_src e) k
| S_empty p e k :
    In e (a_edges A) -> e_kind e = 1 \/ e_kind e = 6 ->
    can_start A p (e_trg e) k -> can_start A p (e_src e) k
| S_prec p e k :
    In e (a_edges A) -> e_kind e = 10 -> p <= e_a1 e ->
    can_start A p (e_trg e) k -> can_start A p (e_src e) k
| S_rule p e k :
    In e (a_edges A) -> e_kind e = 3 ->
    can_start A (e_a3 e) (e_a1 e) k -> can_start A p (e_src e) k.
