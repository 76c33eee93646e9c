(** Which arguments package fmt can print, for every byte string as format. *)
From Coq Require Import Lia.
From Verif Require Import GoStr GoStrFacts GoFmt FmtSpec GoFmtFacts ErrModel ErrSpec ErrFacts.
Local Open Scope Z_scope.

Section Given.
Context {A : Type}.
Variable as_int : arg A -> option Z.
(** all arguments printed are among those given *)
Definition given (args : list (arg A)) (cs : list (chunk A)) : Prop := forall d v, In (CArg d v) cs -> In v args.
Lemma given_app args a b : given args a -> given args b -> given args (a ++ b).
Proof. intros Ha Hb d v I. apply in_app_or in I as [I|I]; eauto. Qed.
Lemma given_plain args c : (forall d v, c <> CArg d v) -> given args [c].
Proof. intros H d v [E|[]]. destruct (H d v E). Qed.
Lemma given_nil args : given args [].
Proof. intros d v []. Qed.
Lemma given_finish args fl wid prec x s pre : given args pre -> given args (fst (fst (finish args fl wid prec x s pre))).
Proof.
  intros P. unfold finish. destruct (verb_at s) as [[verb rest]|]; [|apply given_app; [exact P|apply given_plain; discriminate]].
  destruct (verb =? 37)%N; [apply given_app; [exact P|apply given_plain; discriminate]|].
  destruct (negb (s_good x)); [apply given_app; [exact P|apply given_plain; discriminate]|].
  destruct (nth_error args (s_arg x)) as [v|] eqn:E; cbn [fst]; (apply given_app; [exact P|]); [|apply given_plain; discriminate].
  intros d w [[= _ <-]|[]]. apply nth_error_In in E. exact E.
Qed.
Lemma given_prec args fl wid x after s pre : given args pre -> given args (fst (fst (with_prec as_int args fl wid x after s pre))).
Proof.
  intros P. unfold with_prec.
  assert (G : forall x (after : bool) s prec pre, given args pre -> given args (fst (fst (
    if after then finish args fl wid prec x s pre
    else let '(x', s', _) := arg_number (length args) s x in finish args fl wid prec x' s' pre)))).
  { intros x0 a0 s0 prec pre0 P0. destruct a0; [apply given_finish, P0|]. destruct (arg_number (length args) s0 x0) as [[x1 s1] b1].
    apply given_finish, P0. }
  destruct s as [|c t]; [apply G, P|]. destruct (Ascii.eqb c "."); [|apply G, P]. cbv zeta.
  destruct (arg_number (length args) t (if after then set_bad x else x)) as [[x1 t1] a1]. destruct t1 as [|c1 t1]; [apply G, P|].
  destruct (Ascii.eqb c1 "*").
  - destruct (int_from_arg as_int args (s_arg x1)) as [[z b] k]. apply (G _ false). destruct (b && negb (z <? 0)); [exact P|].
    apply given_app; [exact P|apply given_plain; discriminate].
  - destruct (parsenum 0 false (c1 :: t1)) as [[z b] r]. apply G, P.
Qed.
Lemma given_directive args x s : given args (fst (fst (directive as_int args x s))).
Proof.
  unfold directive. destruct (span is_flag s) as [fl s1]. cbv zeta.
  match goal with |- context [match ?m with Some _ => _ | None => _ end] => remember m as sm eqn:E end.
  destruct sm as [[[verb rest] v]|].
  - cbn [fst]. intros d w [[= _ <-]|[]]. destruct s1 as [|c t]; [discriminate|]. destruct ((97 <=? code c)%N && (code c <=? 122)%N); [|discriminate].
    cbn [s_arg] in E. destruct (nth_error args (s_arg x)) as [u|] eqn:N; [|discriminate]. injection E as _ _ ->. apply nth_error_In in N. exact N.
  - clear E. destruct (arg_number _ s1 _) as [[x1 s2] after]. destruct s2 as [|c t]; [apply given_prec, given_nil|].
    destruct (Ascii.eqb c "*").
    + destruct (int_from_arg as_int args (s_arg x1)) as [[z b] k]. apply given_prec. destruct b; [apply given_nil|apply given_plain; discriminate].
    + destruct (parsenum 0 false (c :: t)) as [[z b] r]. apply given_prec, given_nil.
Qed.
Lemma given_loop args : forall fuel x s cs, printf_loop as_int fuel args x s = Some cs -> given args cs.
Proof.
  induction fuel as [|f IH]; intros x s cs E; [discriminate|]. cbn [printf_loop] in E. destruct s as [|c s].
  { injection E as <-. destruct (_ && _); [apply given_plain; discriminate|apply given_nil]. }
  destruct (span (fun c => negb (Ascii.eqb c "%")) (c :: s)) as [txt s1].
  assert (P : given args (match txt with [] => [] | _ => [CText txt] end)) by (destruct txt; [apply given_nil|apply given_plain; discriminate]).
  destruct s1 as [|c1 s2].
  - destruct (printf_loop as_int f args x []) as [r|] eqn:R; [|discriminate]. injection E as <-. apply given_app; [exact P|]. apply (IH _ _ _ R).
  - pose proof (given_directive args x s2) as D. destruct (directive as_int args x s2) as [[out x'] s3]. cbn [fst] in D.
    destruct (printf_loop as_int f args x' s3) as [r|] eqn:R; [|discriminate]. injection E as <-.
    apply given_app; [exact P|]. apply given_app; [exact D|]. apply (IH _ _ _ R).
Qed.
End Given.
Lemma wrapped_given A (args : list (arg (val A))) cs e : given args cs -> In e (wrapped cs) -> In (VOther (VErr e)) args.
Proof.
  intros G I. unfold wrapped in I. apply in_flat_map in I as (c & Ic & I). unfold wrapped1 in I.
  destruct c as [|d v| | | | | | |]; try destruct I. destruct v as [| |[x| |]]; try destruct I.
  destruct (sp_verb d =? 119)%N; [|destruct I]. destruct I as [->|[]]. apply (G d). exact Ic.
Qed.
