(** Several lists of calls one after the other are one of the ways to interleave
    them. *)
From Coq Require Import Lia Arith List.
From Verif Require Import GoStr GoStrFacts GoMap GoMapFacts FileModel TransModel TransSpec TransFacts ConcModel
  HandleConcModel HandleConcSpec HandleConcFacts HandleRunFacts HandleRaceSpec HandleRaceFacts HandleAnswerFacts HandleAnswerRunFacts.
Import ListNotations.
Local Open Scope nat_scope.
Section Facts.
Context {A : Type}.
Variable fmt : bytes -> list A -> bytes.
Variable norm : bytes -> bytes.
Notation state := (@state A).
Implicit Types s : state.
Lemma run_after qs : forall s own acc, wf s ->
  runs norm s (run_request fmt norm own acc qs) (after fmt norm s own qs) (GRet (acc ++ by_itself fmt norm s own qs)) /\ wf (after fmt norm s own qs).
Proof.
  induction qs as [|q qs IH]; intros s own acc W; cbn [run_request by_itself after].
  - rewrite app_nil_r. split; [apply U_refl|exact W].
  - destruct (one fmt norm s own q) as [[a s1] own1] eqn:E. pose proof (wf_one fmt norm _ _ _ _ _ _ W E) as W1.
    pose proof (fun k => run_one fmt norm s own q a s1 own1 (list ans) k W E) as H.
    destruct a; try (match goal with H : forall k, runs _ _ _ _ (k ?a _) |- _ => destruct (IH s1 own1 (acc ++ [a]) W1) as (H2 & H3) end;
      split; [|exact H3]; eapply runs_trans; [apply H|]; cbn beta iota; rewrite <- app_assoc in H2; exact H2).
    split; [|exact W1]. eapply runs_trans; [apply H|]. apply U_refl.
Qed.
Lemma runs_within {R} s (p : gprog R) s' p' c a b : runs norm s p s' p' -> gsteps norm c (s, a ++ p :: b) -> gsteps norm c (s', a ++ p' :: b).
Proof. induction 1 as [s p|s p s1 p1 s' p' E H IH]; intros K; [exact K|]. apply IH. eapply GS_step; eassumption. Qed.
Lemma turns qss : forall s c done, wf s -> finished done -> gsteps norm c (s, done ++ map (run_request fmt norm [] []) qss) ->
  exists ps, finished ps /\ gsteps norm c (in_turn fmt norm s qss, ps) /\ wf (in_turn fmt norm s qss).
Proof.
  induction qss as [|qs qss IH]; intros s c done W F K; [exists done; rewrite app_nil_r in K; auto|]. cbn [map] in K. unfold in_turn. cbn [fold_left].
  destruct (run_after qs s [] [] W) as [H W']. apply (IH (after fmt norm s [] qs) c (done ++ [GRet (by_itself fmt norm s [] qs)])); [exact W'| |].
  - intros j p E. destruct (Nat.lt_ge_cases j (length done)) as [L|L].
    + rewrite nth_error_app1 in E by exact L. apply (F j p E).
    + rewrite nth_error_app2 in E by exact L. destruct (j - length done) as [|[|?]]; try discriminate. injection E as <-. eexists. reflexivity.
  - rewrite <- app_assoc. cbn [app]. exact (runs_within _ _ _ _ _ _ _ H K).
Qed.
End Facts.
