(** Specification of the command line of xtemplate. *)
From Verif Require Import GoStr MainModel.

(** a flag with its value *)
Inductive value := VText (v : bytes) | VBool (b : bool).
Definition text_flags : list bytes := [B "i"; B "left"; B "right"; B "k"; B "f"; B "o"].
Definition bool_flags : list bytes := [B "d"; B "v"; B "h"].
Definition dashes : list bytes := [B "-"; B "--"].
Definition truths : list bytes := [B "1"; B "t"; B "T"; B "true"; B "TRUE"; B "True"].
Definition falsehoods : list bytes := [B "0"; B "f"; B "F"; B "false"; B "FALSE"; B "False"].
(** the ways to write it *)
Inductive spells (name : bytes) : value -> list bytes -> Prop :=
| Sp_next d v : In d dashes -> In name text_flags -> spells name (VText v) [d ++ name; v]
| Sp_text d v : In d dashes -> In name text_flags -> spells name (VText v) [d ++ name ++ B "=" ++ v]
| Sp_flag d : In d dashes -> In name bool_flags -> spells name (VBool true) [d ++ name]
| Sp_bool d (b : bool) v : In d dashes -> In name bool_flags -> In v (if b then truths else falsehoods) ->
    spells name (VBool b) [d ++ name ++ B "=" ++ v].
(** where the flags end: at the end, before an argument that does not begin with a
    dash (or is one), or at two dashes *)
Inductive rest_args : list bytes -> Prop :=
| Re_nil : rest_args []
| Re_plain s l : s = [] \/ s = B "-" \/ (exists c r, s = c :: r /\ c <> "-"%char) -> rest_args (s :: l)
| Re_end l : rest_args (B "--" :: l).
(** arguments that give these flags, in this order *)
Inductive gives_flags : list (bytes * value) -> list bytes -> Prop :=
| Gi_nil : gives_flags [] []
| Gi_flag name v a vs l : spells name v a -> gives_flags vs l -> gives_flags ((name, v) :: vs) (a ++ l).
Definition command (vs : list (bytes * value)) (args : list bytes) : Prop :=
  exists a r, args = a ++ r /\ gives_flags vs a /\ rest_args r.
(** the flag's value: the last one given, else the default *)
Fixpoint last_given (name : bytes) (vs : list (bytes * value)) : option value :=
  match vs with
  | [] => None
  | (n, v) :: vs => match last_given name vs with Some w => Some w | None => if beq n name then Some v else None end
  end.
Definition text_of (name : bytes) (d : bytes) (vs : list (bytes * value)) : bytes :=
  match last_given name vs with Some (VText v) => v | _ => d end.
Definition bool_of (name : bytes) (vs : list (bytes * value)) : bool :=
  match last_given name vs with Some (VBool b) => b | _ => false end.
Definition meant (vs : list (bytes * value)) : flags :=
  {| fl_i := text_of (B "i") [] vs; fl_left := text_of (B "left") (B "{{") vs; fl_right := text_of (B "right") (B "}}") vs;
     fl_k := text_of (B "k") [] vs; fl_f := text_of (B "f") [] vs; fl_o := text_of (B "o") [] vs;
     fl_d := bool_of (B "d") vs; fl_v := bool_of (B "v") vs; fl_h := bool_of (B "h") vs |}.
(** the command line asks for help by [-help], after flags that are fine *)
Definition asks_help (args : list bytes) : Prop :=
  exists vs a d e l, args = a ++ (d ++ B "help" ++ e) :: l /\ gives_flags vs a /\ In d dashes /\ (e = [] \/ exists v, e = B "=" ++ v).
(** the value of a key in the build settings: the last one *)
Definition last_value (k : bytes) (l : list (bytes * bytes)) (v : bytes) : Prop :=
  (exists a b, l = a ++ (k, v) :: b /\ forall v', ~ In (k, v') b) \/ (v = [] /\ forall v', ~ In (k, v') l).
(** what [-v] prints before the version *)
Definition version_page : bytes := B "xtemplate
https://github.com/youthlin/t/tree/main/cmd/xtemplate
by Youth．霖(https://youthlin.com)
version: ".
