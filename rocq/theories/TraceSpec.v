(** What a debugging context makes [plurals.Eval] print. *)
From Verif Require Import GoStr PluralModel PluralSpec.
Local Open Scope Z_scope.

(** the values waiting, oldest first *)
Definition row (vs : list Z) : bytes := B "[" ++ join (B " ") (map dec_Z vs) ++ B "]".
(** an expression without its blanks *)
Definition spelled (e : exp) : bytes := flat_map text (yield e).
(** [told n vs e v ls]: with the values [vs] waiting, the expression [e] has the
    value [v], and the lines [ls] tell how it comes about *)
Inductive told (n : Z) : list Z -> exp -> Z -> list bytes -> Prop :=
| T_var vs : told n vs EVar n [B "primary: n stack=" ++ row (vs ++ [n])]
| T_int vs ds : int64 (numeral ds) ->
    told n vs (EInt ds) (numeral ds)
      [B "primary: " ++ ds ++ B " stack=" ++ row (vs ++ [numeral ds])]
| T_paren vs e v ls : told n vs e v ls ->
    told n vs (EParen e) v
      (ls ++ [B "primary: (exp) stack=" ++ row (vs ++ [v]);
              B "primary: (" ++ spelled e ++ B ") stack=" ++ row (vs ++ [v])])
| T_pre vs o e u v ls : told n vs e u ls -> pre_val o u v ->
    told n vs (EPre o e) v
      (ls ++ [B "prefix: " ++ text (pre_text o) ++ B " stack=" ++ row (vs ++ [u])])
| T_post vs o e u v ls : told n vs e u ls -> post_val o u v ->
    told n vs (EPost o e) v
      (ls ++ [B "postfix: " ++ text (post_text o) ++ B " stack=" ++ row (vs ++ [u])])
| T_bin vs o a b x y v ls1 ls2 : told n vs a x ls1 -> told n (vs ++ [x]) b y ls2 -> bin_val o x y v ->
    told n vs (EBin o a b) v
      (ls1 ++ ls2 ++ [B "bop   : " ++ text (bin_text o) ++ B " stack=" ++ row (vs ++ [x; y]);
                      B "bop done stack=" ++ row (vs ++ [v])])
| T_cond vs a b c x y z v ls1 ls2 ls3 :
    told n vs a x ls1 -> told n (vs ++ [x]) b y ls2 -> told n (vs ++ [x; y]) c z ls3 ->
    v = (if x =? 1 then y else z) ->
    told n vs (ECond a b c) v
      (ls1 ++ ls2 ++ ls3 ++ [B "bop   : ? stack=" ++ row (vs ++ [x; y; z]);
                             row (vs ++ [x; y; z]);
                             B "bop done stack=" ++ row (vs ++ [v])]).
(** lines, each with its line feed *)
Definition lines (ls : list bytes) : bytes := flat_map (fun l => l ++ [NL]) ls.
(** [stops n vs e ls]: with the values [vs] waiting, [e] faults, and the lines [ls]
    are told before it does *)
Inductive stops (n : Z) : list Z -> exp -> list bytes -> Prop :=
| S_int vs ds : 2 ^ 63 <= numeral ds -> stops n vs (EInt ds) []
| S_paren vs e ls : stops n vs e ls -> stops n vs (EParen e) ls
| S_pre vs o e ls : stops n vs e ls -> stops n vs (EPre o e) ls
| S_post vs o e ls : stops n vs e ls -> stops n vs (EPost o e) ls
| S_bin_l vs o a b ls : stops n vs a ls -> stops n vs (EBin o a b) ls
| S_bin_r vs o a b x ls1 ls2 : told n vs a x ls1 -> stops n (vs ++ [x]) b ls2 ->
    stops n vs (EBin o a b) (ls1 ++ ls2)
| S_bin vs o a b x y ls1 ls2 : told n vs a x ls1 -> told n (vs ++ [x]) b y ls2 ->
    ((o = BDiv \/ o = BMod) /\ y = 0 \/ (o = BShr \/ o = BShl) /\ y < 0) ->
    stops n vs (EBin o a b)
      (ls1 ++ ls2 ++ [B "bop   : " ++ text (bin_text o) ++ B " stack=" ++ row (vs ++ [x; y])])
| S_cond_a vs a b c ls : stops n vs a ls -> stops n vs (ECond a b c) ls
| S_cond_b vs a b c x ls1 ls2 : told n vs a x ls1 -> stops n (vs ++ [x]) b ls2 ->
    stops n vs (ECond a b c) (ls1 ++ ls2)
| S_cond_c vs a b c x y ls1 ls2 ls3 : told n vs a x ls1 -> told n (vs ++ [x]) b y ls2 ->
    stops n (vs ++ [x; y]) c ls3 -> stops n vs (ECond a b c) (ls1 ++ ls2 ++ ls3).
