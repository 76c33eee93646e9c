(** Proofs about the tables of the generated lexer and parser. *)
From Coq Require Import Lia ZifyBool ZifyNat ZifyN.
From Verif Require Import GoStr PluralModel PluralSpec AtnModel AtnSpec.
Local Open Scope Z_scope.

(** ** The lexer *)
Definition LA : automaton :=
  Eval vm_compute in match decode lexer_table with Some a => a | None => Automaton [] [] [] [] [] [] [] end.
Lemma LA_ok : decode lexer_table = Some LA.
Proof. vm_compute. reflexivity. Qed.

Definition zc (c : ascii) : Z := Z.of_N (code c).
Definition start := Eval vm_compute in initial LA.
Lemma start_ok : initial LA = start. Proof. vm_compute. reflexivity. Qed.
Definition after (c : ascii) : list place := reach LA start (zc c).
Definition s_int : list place := Eval vm_compute in after "0".
Definition s_ws : list place := Eval vm_compute in after " ".

(** every transition of the table reads only ASCII *)
Lemma big_none : forall e r, In e (a_edges LA) -> r >= 128 -> reads LA e r = false.
Proof.
  intros e r I H.
  assert (K : forallb (fun e =>
    if e_kind e =? 5 then e_a1 e <? 128
    else if e_kind e =? 2 then e_a2 e <? 128
    else if e_kind e =? 7 then
      forallb (fun i => snd i <? 128) (nth (Z.to_nat (e_a1 e)) (a_sets LA) [])
    else true) (a_edges LA) = true) by (vm_compute; reflexivity).
  rewrite forallb_forall in K. specialize (K e I). unfold reads.
  destruct (e_kind e =? 5); [lia|]. destruct (e_kind e =? 2); [lia|].
  destruct (e_kind e =? 7); [|reflexivity].
  destruct (existsb _ _) eqn:E; [|reflexivity].
  apply existsb_exists in E as [i [Ii Hi]]. rewrite forallb_forall in K. specialize (K i Ii). lia.
Qed.
Lemma out_in : forall A s e, In e (out A s) -> In e (a_edges A).
Proof. intros A s e H. apply filter_In in H. exact (proj1 H). Qed.
Lemma flat_nil : forall (T U : Type) (f : T -> list U) (l : list T),
  (forall x, In x l -> f x = []) -> flat_map f l = [].
Proof.
  intros T U f l. induction l as [|x l IH]; intros H; [reflexivity|].
  cbn [flat_map]. rewrite (H x (or_introl eq_refl)). apply IH. intros y Iy. apply H. right. exact Iy.
Qed.
Lemma big_reach : forall ps r, r >= 128 -> reach LA ps r = [].
Proof.
  intros ps r H. apply flat_nil. intros pl _. apply flat_nil. intros e I.
  rewrite (big_none e r (out_in _ _ _ I) H). reflexivity.
Qed.
(** places at the end of a rule read nothing *)
Definition dead (ps : list place) : bool :=
  forallb (fun pl => match out LA (fst pl) with [] => true | _ => false end) ps.
Lemma dead_reach : forall ps r, dead ps = true -> reach LA ps r = [].
Proof.
  intros ps r H. apply flat_nil. intros pl I. unfold dead in H. rewrite forallb_forall in H.
  specialize (H pl I). destruct (out LA (fst pl)); [reflexivity|discriminate].
Qed.

Definition ascii_chars : list ascii := map ascii_of_nat (seq 0 128).
Lemma ascii_in : forall c, (code c < 128)%N -> In c ascii_chars.
Proof.
  intros c H. unfold ascii_chars. apply in_map_iff. exists (nat_of_ascii c).
  split; [apply ascii_nat_embedding|]. apply in_seq. unfold code, N_of_ascii in *.
  unfold nat_of_ascii. unfold N_of_ascii. lia.
Qed.

Definition places_eqb (a b : list place) : bool :=
  if list_eq_dec (fun x y : place =>
       match Z.eq_dec (fst x) (fst y), list_eq_dec Z.eq_dec (snd x) (snd y) with
       | left p, left q => left (injective_projections x y p q)
       | right p, _ => right (fun E => p (f_equal fst E))
       | _, right q => right (fun E => q (f_equal snd E))
       end) a b then true else false.
Lemma places_eqb_eq : forall a b, places_eqb a b = true -> a = b.
Proof. intros a b. unfold places_eqb. destruct (list_eq_dec _ a b); [tauto|discriminate]. Qed.

Definition is_err (t : tok) : bool := match t with KErr => true | _ => false end.
Definition acc_is (ps : list place) (t : tok) : bool :=
  match accepting LA ps with
  | Some (ty, []) => ty =? token_type t
  | _ => false
  end.
Definition no_acc (ps : list place) : bool :=
  match accepting LA ps with None => true | _ => false end.
Definition nilb {T} (l : list T) : bool := match l with [] => true | _ => false end.

Definition check1 (c : ascii) : bool :=
  if is_ws c then places_eqb (after c) s_ws
  else if is_digit c then places_eqb (after c) s_int
  else (if is_err (one c) then no_acc (after c) else acc_is (after c) (one c) && negb (nilb (after c)))
       && forallb (fun d =>
            match two c d with
            | Some k => let ps := reach LA (after c) (zc d) in
                negb (is_err k) && negb (nilb (after c)) && negb (nilb ps) && acc_is ps k && dead ps
            | None => nilb (reach LA (after c) (zc d))
            end) ascii_chars.
(** the same with less work: the second character matters only where something
    can still be read *)
Definition fast_ (c : ascii) (ps : list place) : bool :=
  if is_ws c then places_eqb ps s_ws
  else if is_digit c then places_eqb ps s_int
  else (if is_err (one c) then no_acc ps else acc_is ps (one c) && negb (nilb ps))
       && if dead ps then forallb (fun d => match two c d with Some _ => false | None => true end) ascii_chars
          else forallb (fun d =>
            match two c d with
            | Some k => let ps' := reach LA ps (zc d) in
                negb (is_err k) && negb (nilb ps) && negb (nilb ps') && acc_is ps' k && dead ps'
            | None => nilb (reach LA ps (zc d))
            end) ascii_chars.
Lemma fast_check1 c : fast_ c (after c) = true -> check1 c = true.
Proof.
  unfold fast_, check1. destruct (is_ws c); [tauto|]. destruct (is_digit c); [tauto|].
  intros H. apply andb_true_iff in H as [H1 H2]. rewrite H1. cbn [andb].
  destruct (dead (after c)) eqn:D; [|exact H2].
  rewrite forallb_forall in *. intros d Id. specialize (H2 d Id). destruct (two c d); [discriminate|].
  rewrite dead_reach by exact D. reflexivity.
Qed.
Definition fast (c : ascii) : bool := fast_ c (after c).
Lemma fast_all : forallb fast ascii_chars = true.
Proof. vm_compute. reflexivity. Qed.
Lemma check1_all : forallb check1 ascii_chars = true.
Proof.
  rewrite forallb_forall. intros c H. apply fast_check1.
  exact (proj1 (forallb_forall fast ascii_chars) fast_all c H).
Qed.
Definition check2 (c : ascii) : bool :=
  (if is_digit c then places_eqb (reach LA s_int (zc c)) s_int else nilb (reach LA s_int (zc c)))
  && (if is_ws c then places_eqb (reach LA s_ws (zc c)) s_ws else nilb (reach LA s_ws (zc c))).
Lemma check2_all : forallb check2 ascii_chars = true.
Proof. vm_compute. reflexivity. Qed.

(** *** Code points *)
Lemma decode_big : forall c t r w, (128 <= code c)%N -> decode_rune (c :: t) = (r, w) ->
  (128 <= r)%N /\ (1 <= w)%nat.
Proof.
  intros c t r w H E. unfold decode_rune, RuneError, is_cont, in_range in E. cbv zeta in E.
  repeat match type of E with
  | (if ?b then _ else _) = _ => destruct b eqn:?
  | (match ?l with [] => _ | _ => _ end) = _ => destruct l
  end; injection E as <- <-;
  repeat match goal with
  | H : context [if ?b then _ else _] |- _ => destruct b eqn:?
  end; split; lia.
Qed.
Lemma decode_small : forall c t, (code c < 128)%N -> decode_rune (c :: t) = (code c, 1%nat).
Proof. intros c t H. unfold decode_rune. apply N.ltb_lt in H. rewrite H. reflexivity. Qed.
Lemma runes_fuel_enough : forall n m s, (length s <= n)%nat -> (length s <= m)%nat ->
  runes_fuel n s = runes_fuel m s.
Proof.
  induction n as [|n IH]; intros m s H1 H2.
  - destruct s; [destruct m; reflexivity|cbn [length] in H1; lia].
  - destruct s as [|c t]; [destruct m; reflexivity|].
    destruct m as [|m]; [cbn [length] in H2; lia|].
    cbn [runes_fuel]. destruct (decode_rune (c :: t)) as [r w] eqn:E. f_equal.
    assert (W : (1 <= w)%nat).
    { destruct (N.lt_ge_cases (code c) 128) as [L | L].
      - rewrite decode_small in E by exact L. injection E as _ <-. lia.
      - exact (proj2 (decode_big _ _ _ _ L E)). }
    apply IH; rewrite skipn_length; cbn [length] in *; lia.
Qed.
Lemma runes_small : forall c t, (code c < 128)%N -> runes (c :: t) = zc c :: runes t.
Proof.
  intros c t H. unfold runes at 1. cbn [length runes_fuel]. rewrite decode_small by exact H.
  reflexivity.
Qed.
Lemma runes_big : forall c t, (128 <= code c)%N -> exists r l, runes (c :: t) = r :: l /\ r >= 128.
Proof.
  intros c t H. unfold runes. cbn [length runes_fuel]. destruct (decode_rune (c :: t)) as [r w] eqn:E.
  exists (Z.of_N r), (runes_fuel (length t) (skipn w (c :: t))). split; [reflexivity|].
  pose proof (proj1 (decode_big _ _ _ _ H E)). lia.
Qed.
