(** Evaluation of the rules of RulesSpec.v. *)
From Verif Require Import GoStr GoStrFacts PluralModel PluralSpec PluralLexFacts PluralParseFacts PluralEvalFacts
  PluralTextFacts RulesSpec.
From Coq Require Import Lia ZifyBool ZifyNat ZifyN.
Local Open Scope Z_scope.

(** ** Parentheses do not change a value *)
Lemma val_erase n e v : val n e v <-> val n (erase e) v.
Proof.
  revert v. induction e; intros v; cbn [erase]; try tauto.
  - rewrite <- IHe. split; [intros H; inversion H; subst; assumption|apply V_paren].
  - split; intros H; inversion H; subst; (eapply V_post; [apply IHe; eassumption|assumption]).
  - split; intros H; inversion H; subst; (eapply V_pre; [apply IHe; eassumption|assumption]).
  - split; intros H; inversion H; subst;
      (eapply V_bin; [apply IHe1; eassumption|apply IHe2; eassumption|assumption]).
  - split; intros H; inversion H; subst;
      ((eapply V_cond_t; [apply IHe1; eassumption|apply IHe2; eassumption|apply IHe3; eassumption])
       || (eapply V_cond_f; [apply IHe1; eassumption|eassumption|apply IHe2; eassumption|apply IHe3; eassumption])).
Qed.
Lemma same_erased s s' e e' n v : wf_text s e -> wf_text s' e' -> erase e = erase e' -> int64 n ->
  eval s' n = EvOk v -> eval s n = EvOk v.
Proof.
  intros W W' E N H. apply (proj1 (eval_wf s e n W N)). apply (proj2 (val_erase n e v)). rewrite E.
  apply (proj1 (val_erase n e' v)). apply (proj1 (eval_wf s' e' n W' N)). exact H.
Qed.

(** ** The values of the rules *)
Definition calc (f : family) (n : Z) : Z :=
  let a := Z.rem n 10 in let b := Z.rem n 100 in
  match f with
  | Asian => 0
  | Germanic => gi (negb (n =? 1))
  | French => gi (n >? 1)
  | Latvian => gif ((a =? 1) && negb (b =? 11)) 0 (gif (negb (n =? 0)) 1 2)
  | Irish => gif (n =? 1) 0 (gif (n =? 2) 1 2)
  | Romanian => gif (n =? 1) 0 (gif ((n =? 0) || ((b >? 0) && (b <? 20))) 1 2)
  | Lithuanian => gif ((a =? 1) && negb (b =? 11)) 0 (gif ((a >=? 2) && ((b <? 10) || (b >=? 20))) 1 2)
  | Slavic => gif ((a =? 1) && negb (b =? 11)) 0
                (gif ((a >=? 2) && (a <=? 4) && ((b <? 10) || (b >=? 20))) 1 2)
  | Czech => gif (n =? 1) 0 (gif ((n >=? 2) && (n <=? 4)) 1 2)
  | Polish => gif (n =? 1) 0 (gif ((a >=? 2) && (a <=? 4) && ((b <? 10) || (b >=? 20))) 1 2)
  | Slovenian => gif (b =? 1) 0 (gif (b =? 2) 1 (gif ((b =? 3) || (b =? 4)) 2 3))
  | Arabic => gif (n =? 0) 0 (gif (n =? 1) 1 (gif (n =? 2) 2
                (gif ((b >=? 3) && (b <=? 10)) 3 (gif (b >=? 11) 4 5))))
  | Irish5 => gif (n =? 1) 0 (gif (n =? 2) 1 (gif ((n >? 2) && (n <? 7)) 2
                (gif ((n >? 6) && (n <? 11)) 3 4)))
  | Welsh => gif (n =? 1) 0 (gif (n =? 2) 1 (gif (negb (n =? 8) && negb (n =? 11)) 2 3))
  | Icelandic => gi (negb (a =? 1) || (b =? 11))
  | Macedonian => gif ((n =? 1) || (a =? 1)) 0 1
  end.
Lemma rule_general f n : eval_general (rule_text f) n = EvOk (calc f n).
Proof. destruct f; unfold calc, rule_text; cbv zeta; common_case n. Qed.
Lemma wf_of s e : parse_start (lex s) = POk e [] -> existsb (fun t => match t with KErr => true | _ => false end) (lex s) = false ->
  wf_text s e.
Proof.
  intros P N. exists (lex s). split.
  - apply lex_iff_layout. split; [reflexivity|]. intros I.
    assert (X : existsb (fun t => match t with KErr => true | _ => false end) (lex s) = true)
      by (apply existsb_exists; exists KErr; split; [exact I|reflexivity]).
    rewrite N in X. discriminate X.
  - destruct (parse_sound _ _ _ P) as (w & E & G & _). rewrite app_nil_r in E. rewrite E. exact G.
Qed.
Lemma rule_wf f : exists e, wf_text (rule_text f) e.
Proof.
  destruct f; eexists; (apply wf_of; [vm_compute; reflexivity|vm_compute; reflexivity]).
Qed.
Lemma rule_eval f n : int64 n -> eval (rule_text f) n = EvOk (calc f n).
Proof.
  intros N. destruct (rule_wf f) as (e & W). rewrite (fast_path_agrees _ _ n W), rule_general. reflexivity.
Qed.
Lemma says_eval s f n : says s f -> int64 n -> eval s n = EvOk (calc f n).
Proof.
  intros (e & e0 & W & W0 & E) N. exact (same_erased _ _ _ _ _ _ W W0 E N (rule_eval f n N)).
Qed.

(** ** Digits *)
Lemma ends_iff n d : 0 <= n -> 0 <= d <= 9 -> (ends n d <-> n mod 10 = d).
Proof.
  intros H D. split.
  - intros (q & Q & ->). rewrite Z.add_comm, Z.mul_comm, Z.mod_add by lia. apply Z.mod_small. lia.
  - intros E. exists (n / 10). split; [apply Z.div_pos; lia|]. rewrite <- E. apply Z.div_mod. lia.
Qed.
Lemma ends2_iff n d : 0 <= n -> 0 <= d <= 99 -> (ends2 n d <-> n mod 100 = d).
Proof.
  intros H D. split.
  - intros (q & Q & ->). rewrite Z.add_comm, Z.mul_comm, Z.mod_add by lia. apply Z.mod_small. lia.
  - intros E. exists (n / 100). split; [apply Z.div_pos; lia|]. rewrite <- E. apply Z.div_mod. lia.
Qed.
Lemma ends_in_iff n a b : 0 <= n -> 0 <= a -> b <= 9 -> (ends_in n a b <-> a <= n mod 10 <= b).
Proof.
  intros H A C. split.
  - intros (d & D & E). apply (ends_iff n d H) in E; lia.
  - intros E. exists (n mod 10). split; [exact E|]. apply ends_iff; lia.
Qed.
Lemma ends2_in_iff n a b : 0 <= n -> 0 <= a -> b <= 99 -> (ends2_in n a b <-> a <= n mod 100 <= b).
Proof.
  intros H A C. split.
  - intros (d & D & E). apply (ends2_iff n d H) in E; lia.
  - intros E. exists (n mod 100). split; [exact E|]. apply ends2_iff; lia.
Qed.
Ltac digits H :=
  rewrite ?(ends_in_iff _ _ _ H), ?(ends2_in_iff _ _ _ H), ?(ends_iff _ _ H), ?(ends2_iff _ _ H) by lia.
(** the last digit of the last two *)
Lemma mod_mod n : 0 <= n -> n mod 10 = (n mod 100) mod 10.
Proof. intros H. Z.div_mod_to_equations. lia. Qed.

Lemma calc_form f n : 0 <= n -> form f n (calc f n).
Proof.
  intros H. pose proof (mod_mod n H) as M.
  assert (R1 : Z.rem n 10 = n mod 10) by (apply Z.rem_mod_nonneg; lia).
  assert (R2 : Z.rem n 100 = n mod 100) by (apply Z.rem_mod_nonneg; lia).
  unfold calc, gi, gif, b2z. cbv zeta. rewrite R1, R2. clear R1 R2.
  pose proof (Z.mod_pos_bound n 10 eq_refl) as B1. pose proof (Z.mod_pos_bound n 100 eq_refl) as B2.
  destruct f;
    repeat match goal with |- context[if ?c then _ else _] => destruct c eqn:? end;
    try (constructor; digits H; Z.div_mod_to_equations; lia);
    match goal with |- form _ ?x _ => first
      [ replace x with 0 by lia; constructor
      | replace x with 1 by lia; constructor
      | replace x with 2 by lia; constructor ] end.
Qed.
Lemma calc_negative f n : n < 0 -> calc f n = negative_form f.
Proof.
  intros H. pose proof (Z.rem_nonpos n 10) as R1. pose proof (Z.rem_nonpos n 100) as R2.
  unfold calc, gi, gif, b2z, negative_form. cbv zeta.
  destruct f; try reflexivity;
    repeat match goal with |- context[if ?c then _ else _] => destruct c eqn:? end; lia.
Qed.
Lemma form_calc f n j : 0 <= n -> form f n j -> j = calc f n.
Proof.
  intros H F. pose proof (mod_mod n H) as M.
  pose proof (Z.mod_pos_bound n 10 eq_refl) as B1. pose proof (Z.mod_pos_bound n 100 eq_refl) as B2.
  destruct F; try reflexivity; unfold calc, gi, gif, b2z; cbv zeta;
    rewrite ?(Z.rem_mod_nonneg n 10), ?(Z.rem_mod_nonneg n 100) by lia;
    repeat match goal with
    | X : context[ends_in] |- _ => rewrite ?(ends_in_iff n) in X by lia
    | X : context[ends2_in] |- _ => rewrite ?(ends2_in_iff n) in X by lia
    end;
    repeat match goal with
    | X : context[ends] |- _ => progress rewrite ?(ends_iff n) in X by lia
    | X : context[ends2] |- _ => progress rewrite ?(ends2_iff n) in X by lia
    end;
    repeat match goal with |- context[if ?c then _ else _] => destruct c eqn:? end;
    first [reflexivity | exfalso; Z.div_mod_to_equations; lia].
Qed.
Lemma form_iff f n j : 0 <= n -> (form f n j <-> j = calc f n).
Proof. intros H. split; [apply form_calc, H|]. intros ->. apply calc_form, H. Qed.
Lemma form_of_iff f n j : form_of f n j <-> j = calc f n.
Proof.
  unfold form_of. destruct (Z_lt_le_dec n 0) as [L|L].
  - rewrite (calc_negative f n L). split; [intros [[H _]|[_ H]]; [lia|exact H]|intros H; right; auto].
  - rewrite (form_iff f n j L). split; [intros [[_ H]|[H _]]; [exact H|lia]|intros H; left; auto].
Qed.
Lemma calc_range f n : 0 <= calc f n < count f.
Proof.
  unfold calc, gi, gif, b2z, count. cbv zeta.
  destruct f; repeat match goal with |- context[if ?c then _ else _] => destruct c end; lia.
Qed.
Lemma calc_onto f j : 0 <= j < count f -> exists n, 0 <= n <= 100 /\ calc f n = j.
Proof.
  intros H.
  assert (X : Forall (fun k => Exists (fun m => calc f (Z.of_nat m) = Z.of_nat k) (seq 0 101)) (seq 0 (Z.to_nat (count f)))).
  { destruct f; vm_compute seq; repeat (apply Forall_cons; [|]); try apply Forall_nil;
      repeat (first [apply Exists_cons_hd; reflexivity | apply Exists_cons_tl]). }
  rewrite Forall_forall in X. specialize (X (Z.to_nat j)). rewrite in_seq, Exists_exists in X.
  destruct X as (m & I & E); [lia|]. apply in_seq in I. exists (Z.of_nat m). split; [lia|]. lia.
Qed.
