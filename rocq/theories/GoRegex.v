(** The part of package [regexp] the code uses: a sequence of single-character
    matchers, starred or not, with a lazy or greedy star, matched with the
    leftmost-first (Perl) rule of RE2.  Model of the Go library.
    Simplified: works on bytes, not on runes.  All literal characters and
    classes used are ASCII except the dot, for which it makes no difference: a
    dot that stops inside a rune would have to be followed by an ASCII byte. *)
From Verif Require Import GoStr.

(* the patterns of translator/file.go:19, plural.go:19, cmd/xtemplate/internal/run.go:26 *)
Inductive item :=
| IOne (p : ascii -> bool)                    (* one character *)
| IStar (greedy : bool) (p : ascii -> bool)   (* p* or p*? *)
| IEnd.                                       (* $ *)

(** [rx items s]: match a prefix of [s]; the text each item matched and the rest *)
(* used at translator/file.go:109, plural.go:29, run.go:31 *)
Fixpoint rx (its : list item) (s : bytes) {struct its} : option (list bytes * bytes) :=
  match its with
  | [] => Some ([], s)
  | IOne p :: r =>
      match s with
      | c :: t =>
          if p c then match rx r t with Some (m, u) => Some ([c] :: m, u) | None => None end
          else None
      | [] => None
      end
  | IEnd :: r => match s with [] => match rx r [] with Some (m, u) => Some ([] :: m, u) | None => None end | _ => None end
  | IStar g p :: r =>
      (fix star (pre : bytes) (s : bytes) {struct s} : option (list bytes * bytes) :=
         let here := match rx r s with Some (m, u) => Some (rev pre :: m, u) | None => None end in
         let more := match s with
                     | c :: t => if p c then star (c :: pre) t else None
                     | [] => None
                     end in
         if g then match more with Some x => Some x | None => here end
         else match here with Some x => Some x | None => more end) [] s
  end.

(** [re.FindAllStringSubmatch(s, -1)]: start positions from left to right; after a
    match the search goes on behind it (no pattern used here matches the empty
    string, so the empty-match rule is not needed; an empty match would stop the
    model).  [anchored]: the pattern begins with ^. *)
(* used at translator/file.go:109, plural.go:29, run.go:31 *)
Fixpoint find_all_from (fuel : nat) (its : list item) (s : bytes) : list (list bytes) :=
  match fuel with
  | O => []
  | S f =>
      match rx its s with
      | Some (m, u) => if Nat.ltb (length u) (length s) then m :: find_all_from f its u else [m]
      | None => match s with [] => [] | _ :: t => find_all_from f its t end
      end
  end.
(* called at translator/file.go:109, plural.go:29, run.go:31 *)
Definition find_all (anchored : bool) (its : list item) (s : bytes) : list (list bytes) :=
  if anchored then match rx its s with Some (m, _) => [m] | None => [] end
  else find_all_from (S (length s)) its s.

(* translator/file.go:19, plural.go:19 *)
Definition lit (s : string) : list item := map (fun c => IOne (Ascii.eqb c)) (B s).
(** [\s], [\d], [.] *)
(* translator/plural.go:19 *)
Definition re_space (c : ascii) : bool :=
  Ascii.eqb c TAB || Ascii.eqb c NL || Ascii.eqb c "012"%char || Ascii.eqb c CR || Ascii.eqb c SP.
(* translator/file.go:19, plural.go:19 *)
Definition re_dot (c : ascii) : bool := negb (Ascii.eqb c NL).
