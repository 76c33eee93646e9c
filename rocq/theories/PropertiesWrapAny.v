(** C55 for every byte string as format, well-formed or not. *)
From Verif Require Import GoStr GoStrFacts GoFmt FmtSpec GoFmtFacts ErrModel ErrSpec ErrFacts WrapAnyFacts.
Local Open Scope Z_scope.

(** Whatever the format, an error made by Errorf is itself and has no causes but
    those of its arguments. *)
Theorem C55_errorf_nothing_else : forall A (print : spec -> arg (val A) -> bytes) as_int extra cmp next format args t,
  Is cmp (Some (Errorf print as_int extra next format args)) (Some t) = true ->
  (cmp = true /\ e_ident t = next) \/ exists x, In (VOther (VErr x)) args /\ sees cmp x t.
Proof.
  intros A print as_int extra cmp next format args t. unfold Errorf, errorf, printf_chunks. cbn [Is].
  destruct (printf_loop as_int _ args _ format) as [cs|] eqn:E; rewrite is_sees, sees_node.
  - intros [[C N]|(x & I & S)]; [left; auto|]. right. exists x. split; [|exact S]. apply (wrapped_given _ _ cs); [|exact I].
    exact (given_loop as_int args _ _ _ _ E).
  - intros [[C N]|(x & [] & S)]. left. auto.
Qed.
Print Assumptions C55_errorf_nothing_else.
(** Likewise for Wrapf: it is itself and has no causes but those of the error
    wrapped and those of its arguments. *)
Theorem C55_nothing_else : forall A (print : spec -> arg (val A) -> bytes) as_int extra cmp next e format args t,
  Is cmp (Some (Wrapf print as_int extra next e format args)) (Some t) = true ->
  (cmp = true /\ e_ident t = next) \/ sees_opt cmp e t \/ exists x, In (VOther (VErr x)) args /\ sees cmp x t.
Proof.
  intros A print as_int extra cmp next e format args t H. apply C55_errorf_nothing_else in H as [H|(x & I & S)]; [left; exact H|].
  right. apply in_app_or in I as [I|[E|[]]]; [right; exists x; auto|]. left. destruct e as [y|]; [|discriminate].
  injection E as ->. exists x. auto.
Qed.
Print Assumptions C55_nothing_else.
(** A format whose index bracket is broken: the new error, the argument and the
    error wrapped are found, and a third error is not. *)
Example C55_nothing_else_case :
  let leaf n := Err n (B "x") (fun _ => false) [] in
  let w := Wrapf (A := unit) (fun _ _ => B "x") (fun _ => None) (fun _ => []) 9%nat (Some (leaf 1%nat)) (B "%w %[x]d") [VOther (VErr (leaf 2%nat))] in
  Is true (Some w) (Some (leaf 2%nat)) = true /\ Is true (Some w) (Some (leaf 3%nat)) = false /\ Is true (Some w) (Some w) = true
  /\ Is true (Some w) (Some (leaf 1%nat)) = true.
Proof. vm_compute. repeat split. Qed.
