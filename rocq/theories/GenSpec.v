(** What the generated parser is held against: the parse tree of an expression. *)
From Verif Require Import GoStr PluralModel PluralSpec AtnModel AtnSpec GenModel.
Local Open Scope Z_scope.

(** a token as the parser is given it *)
Definition as_token (t : tok) : gtok := (token_type t, text t).
(** the tree of an expression: every operand and operator in the order of the
    text, each operator also as the label of its context *)
Definition leaf (t : tok) : tree := Leaf (as_token t).
Definition label (t : tok) : option gtok := Some (as_token t).
Fixpoint tree_of (e : exp) : tree :=
  match e with
  | EVar => ExpContext None None None [PrimaryContext (as_token KN) [leaf KN]]
  | EInt ds => ExpContext None None None [PrimaryContext (as_token (KInt ds)) [leaf (KInt ds)]]
  | EParen e =>
      ExpContext None None None [PrimaryContext (as_token KLP) [leaf KLP; tree_of e; leaf KRP]]
  | EPost o e => ExpContext None None (label (post_text o)) [tree_of e; leaf (post_text o)]
  | EPre o e => ExpContext (label (pre_text o)) None None [leaf (pre_text o); tree_of e]
  | EBin o a b => ExpContext None (label (bin_text o)) None [tree_of a; leaf (bin_text o); tree_of b]
  | ECond a b c =>
      ExpContext None (label KQ) None [tree_of a; leaf KQ; tree_of b; leaf KColon; tree_of c]
  end.
