(** Facts about the tag cache. *)
From Coq Require Import Lia.
From Verif Require Import GoStr GoStrFacts GoMap GoMapFacts TagModel.
Section Tag.
Context {T : Type}.
Variable make : bytes -> T.
Definition good_cache (m : gmap T) : Prop := forall l t, mget l m = Some t -> t = make l.
Definition good_call (c : call) : Prop :=
  match c with Start _ => True | Miss l t | Done l t => t = make l end.
Lemma good_put m l : good_cache m -> good_cache (mput l (make l) m).
Proof.
  intros G k t H. rewrite mget_put in H. destruct (beq k l) eqn:E; [|exact (G k t H)].
  apply beq_eq in E. congruence.
Qed.
Lemma step_good m c : good_cache m -> good_call c -> good_cache (fst (call_step make m c)) /\ good_call (snd (call_step make m c)).
Proof.
  intros G C. destruct c as [l|l t|l t]; cbn [call_step].
  - destruct (mget l m) as [t|] eqn:E; cbn [fst snd good_call]; auto.
  - cbn [fst snd good_call] in *. subst t. split; [apply good_put, G|reflexivity].
  - auto.
Qed.
Lemma replace_in {X} n (x y : X) l : In y (replace n x l) -> y = x \/ In y l.
Proof.
  revert n. induction l as [|z l IH]; intros [|n] H; cbn [replace] in H; auto.
  - destruct H as [H|H]; [auto|right; right; exact H].
  - destruct H as [H|H]; [right; left; exact H|]. apply IH in H as [H|H]; [auto|right; right; exact H].
Qed.
Lemma execution_good c : execution make c -> good_cache (cache c) /\ forall x, In x (calls c) -> good_call x.
Proof.
  intros E. induction E as [|c c' E (G & C) S]; [split; [intros l t H; discriminate|intros x []]|].
  destruct S as [c l|c i x H]; cbn [cache calls].
  - split; [exact G|]. intros x I. apply in_app_or in I as [I|[<-|[]]]; [apply C, I|exact I].
  - apply nth_error_In in H. destruct (step_good (cache c) x G (C x H)) as [G' C']. split; [exact G'|].
    intros y I. apply replace_in in I as [->|I]; [exact C'|apply C, I].
Qed.
Lemma tag_good m l : good_cache m -> good_cache (fst (tag make m l)) /\ snd (tag make m l) = make l.
Proof.
  intros G. unfold tag. destruct (mget l m) as [t|] eqn:E; cbn [fst snd]; [split; [exact G|apply G, E]|].
  split; [apply good_put, G|reflexivity].
Qed.
Lemma tags_good ls : forall m, good_cache m -> good_cache (fst (tags make m ls)) /\ snd (tags make m ls) = map make ls.
Proof.
  induction ls as [|l ls IH]; intros m G; cbn [tags]; [auto|].
  pose proof (tag_good m l G) as [G1 E1]. destruct (tag make m l) as [m1 t]. cbn [fst snd] in *.
  specialize (IH m1 G1) as [G2 E2]. destruct (tags make m1 ls) as [m2 ts]. cbn [fst snd map] in *. split; [exact G2|congruence].
Qed.
End Tag.
