(** The table of the parser describes the grammar. *)
From Coq Require Import Lia ZifyBool ZifyNat ZifyN.
From Verif Require Import GoStr PluralModel PluralSpec AtnModel AtnSpec.
Local Open Scope Z_scope.

Definition PA : automaton :=
  Eval vm_compute in match decode parser_table with Some a => a | None => Automaton [] [] [] [] [] [] [] end.
Lemma PA_ok : decode parser_table = Some PA.
Proof. vm_compute. reflexivity. Qed.

(** ** From the grammar to the table *)
Lemma path_trans : forall p s w1 m, path PA p s w1 m ->
  forall w2 u, path PA p m w2 u -> path PA p s (w1 ++ w2) u.
Proof.
  intros p s w1 m H. induction H; intros w' u' H'; cbn [app].
  - exact H'.
  - apply W_empty; auto.
  - apply W_read; auto.
  - apply W_prec; auto.
  - rewrite <- app_assoc. eapply W_rule; eauto.
Qed.
Definition edge_eqb (a b : edge) : bool :=
  (e_src a =? e_src b) && (e_trg a =? e_trg b) && (e_kind a =? e_kind b) &&
  (e_a1 a =? e_a1 b) && (e_a2 a =? e_a2 b) && (e_a3 a =? e_a3 b).
Lemma edge_eqb_eq : forall a b, edge_eqb a b = true -> a = b.
Proof.
  intros [a1 a2 a3 a4 a5 a6] [b1 b2 b3 b4 b5 b6] H. unfold edge_eqb in H. cbn in H.
  f_equal; lia.
Qed.
Lemma has : forall e, existsb (edge_eqb e) (a_edges PA) = true -> In e (a_edges PA).
Proof.
  intros e H. apply existsb_exists in H as (x & I & E). apply edge_eqb_eq in E. subst. exact I.
Qed.
Lemma by_empty : forall p s t w u, existsb (edge_eqb (Edge s t 1 0 0 0)) (a_edges PA) = true ->
  path PA p t w u -> path PA p s w u.
Proof. intros p s t w u H P. apply (W_empty PA p (Edge s t 1 0 0 0)); [apply has, H|left; reflexivity|exact P]. Qed.
Lemma by_action : forall p s t w u a b, existsb (edge_eqb (Edge s t 6 a b 0)) (a_edges PA) = true ->
  path PA p t w u -> path PA p s w u.
Proof. intros p s t w u a b H P. apply (W_empty PA p (Edge s t 6 a b 0)); [apply has, H|right; reflexivity|exact P]. Qed.
Lemma by_prec : forall p s t k w u, existsb (edge_eqb (Edge s t 10 k 0 0)) (a_edges PA) = true ->
  p <= k -> path PA p t w u -> path PA p s w u.
Proof. intros p s t k w u H L P. apply (W_prec PA p (Edge s t 10 k 0 0)); [apply has, H|reflexivity|exact L|exact P]. Qed.
Lemma by_atom : forall p s t k w u, existsb (edge_eqb (Edge s t 5 k 0 0)) (a_edges PA) = true ->
  path PA p t w u -> path PA p s (k :: w) u.
Proof.
  intros p s t k w u H P. apply (W_read PA p (Edge s t 5 k 0 0)); [apply has, H| |exact P].
  unfold reads. cbn [e_kind e_a1 Z.eqb]. apply Z.eqb_refl.
Qed.
Lemma by_set : forall p s t i k w u, existsb (edge_eqb (Edge s t 7 i 0 0)) (a_edges PA) = true ->
  existsb (fun i => (fst i <=? k) && (k <=? snd i)) (nth (Z.to_nat i) (a_sets PA) []) = true ->
  path PA p t w u -> path PA p s (k :: w) u.
Proof. intros p s t i k w u H R P. apply (W_read PA p (Edge s t 7 i 0 0)); [apply has, H|exact R|exact P]. Qed.
Lemma ends_exp : ends PA 1 3.
Proof. exists 3%nat, (Node 7 1). repeat split; reflexivity. Qed.
Lemma ends_primary : ends PA 2 5.
Proof. exists 5%nat, (Node 7 2). repeat split; reflexivity. Qed.
Lemma ends_start : ends PA 0 1.
Proof. exists 1%nat, (Node 7 0). repeat split; reflexivity. Qed.
Lemma by_exp : forall p s t q w1 w2 u, existsb (edge_eqb (Edge s t 3 2 1 q)) (a_edges PA) = true ->
  path PA q 2 w1 3 -> path PA p t w2 u -> path PA p s (w1 ++ w2) u.
Proof.
  intros p s t q w1 w2 u H P1 P2.
  apply (W_rule PA p (Edge s t 3 2 1 q) w1 w2 3); [apply has, H|reflexivity|exact ends_exp|exact P1|exact P2].
Qed.
Lemma by_exp_end : forall p s t q w1 u, existsb (edge_eqb (Edge s t 3 2 1 q)) (a_edges PA) = true ->
  path PA q 2 w1 3 -> path PA p t [] u -> path PA p s w1 u.
Proof.
  intros p s t q w1 u H P1 P2. rewrite <- (app_nil_r w1). eapply by_exp; eassumption.
Qed.
Lemma by_primary : forall p s t w1 u, existsb (edge_eqb (Edge s t 3 4 2 0)) (a_edges PA) = true ->
  path PA 0 4 w1 5 -> path PA p t [] u -> path PA p s w1 u.
Proof.
  intros p s t w1 u H P1 P2. rewrite <- (app_nil_r w1).
  apply (W_rule PA p (Edge s t 3 4 2 0) w1 [] 5); [apply has, H|reflexivity|exact ends_primary|exact P1|exact P2].
Qed.

(** the expression read so far: the loop of rule [exp] is reached *)
Definition operand (p : Z) (w : list Z) : Prop := path PA p 2 w 59.
Lemma operand_exp : forall p w, operand p w -> path PA p 2 w 3.
Proof.
  intros p w H. rewrite <- (app_nil_r w). apply (path_trans _ _ _ _ H).
  apply (by_empty p 59 60); [reflexivity|]. apply (by_empty p 60 3); [reflexivity|]. apply W_stay.
Qed.
Ltac loop_back p := apply (by_empty p 58 61); [reflexivity|]; apply (by_empty p 61 59); [reflexivity|]; apply W_stay.
Ltac binary p s := apply (by_empty p 59 57); [reflexivity|]; apply (by_empty p 57 s); [reflexivity|].
Lemma operand_bin : forall t o k p w1 w2, bin_level t o k -> p <= Z.of_nat k -> operand p w1 ->
  path PA (Z.of_nat k + 1) 2 w2 3 -> operand p (w1 ++ token_type t :: w2).
Proof.
  intros t o k p w1 w2 B L H1 H2. apply (path_trans _ _ _ _ H1).
  apply (by_empty p 59 57); [reflexivity|].
  destruct B; cbn [token_type];
  match type of L with _ <= Z.of_nat ?k =>
    let s := eval vm_compute in (16 + 3 * (12 - Z.of_nat k)) in
    let q := eval vm_compute in (Z.of_nat k) in
    apply (by_empty p 57 s); [reflexivity|];
    apply (by_prec p s (s + 1) q); [reflexivity|exact L|];
    let i := eval vm_compute in (2 + (12 - Z.of_nat k)) in
    first [apply (by_set p (s + 1) (s + 2) i); [reflexivity|reflexivity|]
          |apply (by_atom p (s + 1) (s + 2)); [reflexivity|]];
    apply (by_exp_end p (s + 2) 58 (q + 1)); [reflexivity|exact H2|]; loop_back p
  end.
Qed.
Lemma operand_cond : forall p w1 w2 w3, p <= 1 -> operand p w1 -> path PA 0 2 w2 3 -> path PA 1 2 w3 3 ->
  operand p (w1 ++ 23 :: w2 ++ 24 :: w3).
Proof.
  intros p w1 w2 w3 L H1 H2 H3. apply (path_trans _ _ _ _ H1).
  apply (by_empty p 59 57); [reflexivity|]. apply (by_empty p 57 49); [reflexivity|].
  apply (by_prec p 49 50 1); [reflexivity|exact L|]. apply (by_atom p 50 51); [reflexivity|].
  apply (by_exp p 51 52 0); [reflexivity|exact H2|]. apply (by_atom p 52 53); [reflexivity|].
  apply (by_exp_end p 53 54 1); [reflexivity|exact H3|].
  apply (by_empty p 54 58); [reflexivity|]. loop_back p.
Qed.
Lemma operand_post : forall t o p w, post_level t o -> p <= 15 -> operand p w -> operand p (w ++ [token_type t]).
Proof.
  intros t o p w B L H. apply (path_trans _ _ _ _ H).
  apply (by_empty p 59 57); [reflexivity|]. apply (by_empty p 57 55); [reflexivity|].
  apply (by_prec p 55 56 15); [reflexivity|exact L|].
  apply (by_set p 56 58 8); [reflexivity|destruct B; reflexivity|]. loop_back p.
Qed.
Lemma operand_pre : forall t o p w, pre_level t o -> path PA 14 2 w 3 -> path PA 13 2 w 3 ->
  operand p (token_type t :: w).
Proof.
  intros t o p w B H14 H13. apply (by_empty p 2 14); [reflexivity|].
  destruct B; cbn [token_type];
  first
  [ apply (by_empty p 14 10); [reflexivity|]; apply (by_set p 10 11 0); [reflexivity|reflexivity|];
    apply (by_exp_end p 11 15 14); [reflexivity|exact H14|];
    apply (by_empty p 15 59); [reflexivity|apply W_stay]
  | apply (by_empty p 14 12); [reflexivity|]; apply (by_set p 12 13 1); [reflexivity|reflexivity|];
    apply (by_exp_end p 13 15 13); [reflexivity|exact H13|];
    apply (by_empty p 15 59); [reflexivity|apply W_stay] ].
Qed.
Lemma operand_primary : forall p w, path PA 0 4 w 5 -> operand p w.
Proof.
  intros p w H. apply (by_empty p 2 14); [reflexivity|]. apply (by_empty p 14 8); [reflexivity|].
  apply (by_action p 8 9 _ _ 1 (-1)); [reflexivity|].
  apply (by_primary p 9 15); [reflexivity|exact H|].
  apply (by_empty p 15 59); [reflexivity|apply W_stay].
Qed.

Lemma gram_operand : forall k ts e, gram k ts e ->
  forall p, p <= Z.of_nat k \/ ((13 <= k)%nat /\ p <= 15) -> operand p (map token_type ts).
Proof.
  intros k ts e G. induction G; intros p Hp.
  - rewrite map_app. cbn [map]. apply (operand_bin t o k); [assumption| | |].
    + destruct Hp as [Hp | [Hk _]]; [exact Hp|]. destruct H; lia.
    + apply IHG1. destruct Hp as [Hp | [Hk _]]; [left; exact Hp|]. destruct H; lia.
    + apply operand_exp, IHG2. left. lia.
  - rewrite map_app. cbn [map]. rewrite map_app. cbn [map]. apply (operand_cond p).
    + lia.
    + apply IHG1. lia.
    + apply operand_exp, IHG2. lia.
    + apply operand_exp, IHG3. lia.
  - cbn [map]. apply (operand_pre t o); [assumption| |]; apply operand_exp, IHG; right; lia.
  - rewrite map_app. cbn [map]. apply (operand_post t o); [assumption|lia|]. apply IHG. lia.
  - apply operand_primary. cbn [map]. rewrite map_app. cbn [map token_type].
    apply (by_empty 0 4 68); [reflexivity|]. apply (by_empty 0 68 62); [reflexivity|].
    apply (by_atom 0 62 63); [reflexivity|].
    apply (by_exp 0 63 64 0); [reflexivity|apply operand_exp, IHG; lia|].
    apply (by_atom 0 64 65); [reflexivity|]. apply (by_empty 0 65 69); [reflexivity|].
    apply (by_empty 0 69 5); [reflexivity|apply W_stay].
  - apply operand_primary. cbn [map token_type].
    apply (by_empty 0 4 68); [reflexivity|]. apply (by_empty 0 68 66); [reflexivity|].
    apply (by_atom 0 66 69); [reflexivity|]. apply (by_empty 0 69 5); [reflexivity|apply W_stay].
  - apply operand_primary. cbn [map token_type].
    apply (by_empty 0 4 68); [reflexivity|]. apply (by_empty 0 68 67); [reflexivity|].
    apply (by_atom 0 67 69); [reflexivity|]. apply (by_empty 0 69 5); [reflexivity|apply W_stay].
  - apply IHG. lia.
Qed.

(** ** Rebracketing: what may be put behind an expression *)
Lemma gram_up : forall j k ts e, (1 <= j)%nat -> (j <= k)%nat -> (k <= 15)%nat -> gram k ts e -> gram j ts e.
Proof.
  intros j k ts e H1 H2 H3 G. remember (k - j)%nat as n eqn:E.
  revert k H2 H3 G E. induction n as [|n IH]; intros k H2 H3 G E.
  - replace j with k by lia. exact G.
  - apply (IH (k - 1)%nat); [lia|lia| |lia]. apply G_up; [lia|lia|]. replace (S (k - 1)) with k by lia. exact G.
Qed.
Lemma bin_range : forall t o k, bin_level t o k -> (2 <= k <= 12)%nat.
Proof. intros t o k H. destruct H; lia. Qed.
Lemma ext_bin : forall j ts e, gram j ts e -> forall t o k ts2 b, bin_level t o k -> (j <= k)%nat ->
  gram (S k) ts2 b -> exists e', gram j (ts ++ t :: ts2) e'.
Proof.
  intros j ts e G.
  assert (J : (1 <= j <= 15)%nat).
  { clear -G. induction G; try (apply bin_range in H); lia. }
  induction G; intros t' o' k' ts2 b' B L G'.
  - pose proof (bin_range _ _ _ H) as R. pose proof (bin_range _ _ _ B) as R'.
    destruct (Nat.eq_dec k k') as [<- | N].
    + eexists. apply (G_bin t' o' k); [exact B| |exact G']. exact (G_bin _ _ _ _ _ _ _ H G1 G2).
    + destruct (IHG2 ltac:(lia) t' o' k' ts2 b' B ltac:(lia) G') as [e' E'].
      rewrite <- app_assoc. cbn [app]. eexists. exact (G_bin _ _ _ _ _ _ _ H G1 E').
  - pose proof (bin_range _ _ _ B) as R'.
    destruct (IHG3 ltac:(lia) t' o' k' ts2 b' B ltac:(lia) G') as [e' E'].
    rewrite <- app_assoc. cbn [app]. rewrite <- app_assoc. cbn [app]. eexists. exact (G_cond _ _ _ _ _ _ G1 G2 E').
  - apply bin_range in B. lia.
  - apply bin_range in B. lia.
  - apply bin_range in B. lia.
  - apply bin_range in B. lia.
  - apply bin_range in B. lia.
  - destruct (Nat.eq_dec k k') as [<- | N].
    + exists (EBin o' e b'). apply (G_bin t' o' k); [exact B| |exact G']. apply G_up; [lia|lia|exact G].
    + destruct (IHG ltac:(lia) t' o' k' ts2 b' B ltac:(lia) G') as [e' E']. exists e'.
      apply G_up; [lia|lia|exact E'].
Qed.
Lemma ext_cond : forall ts e, gram 1 ts e -> forall ts2 ts3 b c, gram 1 ts2 b -> gram 1 ts3 c ->
  exists e', gram 1 (ts ++ KQ :: ts2 ++ KColon :: ts3) e'.
Proof.
  intros ts e G. remember 1%nat as j eqn:Ej. revert Ej. induction G; intros Ej ts2 ts3 b' c' H2 H3; subst.
  - apply bin_range in H. lia.
  - destruct (IHG3 eq_refl ts2 ts3 b' c' H2 H3) as [e' E'].
    rewrite <- app_assoc. cbn [app]. rewrite <- app_assoc. cbn [app]. eexists. exact (G_cond _ _ _ _ _ _ G1 G2 E').
  - discriminate.
  - discriminate.
  - discriminate.
  - discriminate.
  - discriminate.
  - eexists. exact (G_cond _ _ _ _ _ _ G H2 H3).
Qed.
Lemma ext_post : forall j ts e, gram j ts e -> (j <= 14)%nat -> forall t o, post_level t o ->
  exists e', gram j (ts ++ [t]) e'.
Proof.
  intros j ts e G. induction G; intros L t' o' B.
  - pose proof (bin_range _ _ _ H). destruct (IHG2 ltac:(lia) t' o' B) as [e' E'].
    rewrite <- app_assoc. cbn [app]. eexists. exact (G_bin _ _ _ _ _ _ _ H G1 E').
  - destruct (IHG3 ltac:(lia) t' o' B) as [e' E'].
    rewrite <- app_assoc. cbn [app]. rewrite <- app_assoc. cbn [app]. eexists. exact (G_cond _ _ _ _ _ _ G1 G2 E').
  - destruct (IHG ltac:(lia) t' o' B) as [e' E']. cbn [app]. eexists. exact (G_pre _ _ _ _ H E').
  - exists (EPost o' (EPost o e)). apply (G_post t' o' (w ++ [t])); [exact B|]. apply (G_post t o w); [exact H|exact G].
  - lia.
  - lia.
  - lia.
  - destruct (Nat.eq_dec k 14) as [-> | N].
    + exists (EPost o' e). apply (G_post t' o' w); [exact B|]. apply G_up; [lia|lia|exact G].
    + destruct (IHG ltac:(lia) t' o' B) as [e' E']. exists e'. apply G_up; [lia|lia|exact E'].
Qed.

(** ** From the table to the grammar *)
Definition lev (p : Z) : nat := Nat.max 1 (Nat.min (Z.to_nat p) 13).
Definition lang (j : nat) (w : list Z) : Prop :=
  forall ts, map token_type ts = w -> exists e, gram j ts e.
Definition tail (p : Z) (w : list Z) : Prop := forall w0, lang (lev p) w0 -> lang (lev p) (w0 ++ w).

Lemma map_split : forall ts a b, map token_type ts = a ++ b ->
  exists t1 t2, ts = t1 ++ t2 /\ map token_type t1 = a /\ map token_type t2 = b.
Proof. intros ts a b H. apply map_eq_app in H as (t1 & t2 & -> & <- & <-). eauto. Qed.
Lemma map_head : forall ts k w, map token_type ts = k :: w ->
  exists t r, ts = t :: r /\ token_type t = k /\ map token_type r = w.
Proof. intros ts k w H. apply map_eq_cons in H as (t & r & -> & <- & <-). eauto. Qed.
Lemma tail_nil : forall p, tail p [].
Proof. intros p w0 H. rewrite app_nil_r. exact H. Qed.
Lemma tail_bin : forall p q k w1 w2, (2 <= k <= 12)%nat -> p <= Z.of_nat k ->
  (forall t, token_type t = q -> exists o, bin_level t o k) ->
  lang (S k) w1 -> tail p w2 -> tail p (q :: w1 ++ w2).
Proof.
  intros p q k w1 w2 K L B H1 H2 w0 H0. rewrite app_comm_cons, app_assoc. apply H2.
  intros ts E. apply map_split in E as (t1 & t2 & -> & E1 & E2).
  apply map_head in E2 as (t & r & -> & Et & Er).
  destruct (H0 t1 E1) as [e0 G0]. destruct (H1 r Er) as [e1 G1]. destruct (B t Et) as [o Bo].
  apply (ext_bin _ _ _ G0 t o k _ e1 Bo); [unfold lev; lia|exact G1].
Qed.
Lemma tail_cond : forall p w1 w2 w3, p <= 1 -> lang 1 w1 -> lang 1 w2 -> tail p w3 ->
  tail p (23 :: w1 ++ 24 :: w2 ++ w3).
Proof.
  intros p w1 w2 w3 L H1 H2 H3 w0 H0.
  replace (w0 ++ 23 :: w1 ++ 24 :: w2 ++ w3) with ((w0 ++ 23 :: w1 ++ 24 :: w2) ++ w3)
    by (rewrite <- app_assoc; cbn [app]; rewrite <- app_assoc; reflexivity).
  apply H3. assert (Lv : lev p = 1%nat) by (unfold lev; lia). rewrite Lv in *.
  intros ts E. apply map_split in E as (t1 & t2 & -> & E1 & E2).
  apply map_head in E2 as (t & r & -> & Et & Er).
  apply map_split in Er as (t3 & t4 & -> & E3 & E4).
  apply map_head in E4 as (t' & r' & -> & Et' & Er').
  assert (t = KQ) by (destruct t; cbn in Et; try discriminate; reflexivity).
  assert (t' = KColon) by (destruct t'; cbn in Et'; try discriminate; reflexivity). subst t t'.
  destruct (H0 t1 E1) as [e0 G0]. destruct (H1 t3 E3) as [e1 G1]. destruct (H2 r' Er') as [e2 G2].
  exact (ext_cond _ _ G0 _ _ _ _ G1 G2).
Qed.
Lemma tail_post : forall p q w, 1 <= q <= 2 -> tail p w -> tail p (q :: w).
Proof.
  intros p q w L H w0 H0. change (q :: w) with ([q] ++ w). rewrite app_assoc. apply H.
  intros ts E. apply map_split in E as (t1 & t2 & -> & E1 & E2).
  apply map_head in E2 as (t & r & -> & Et & Er). apply map_eq_nil in Er. subst r.
  destruct (H0 t1 E1) as [e0 G0].
  assert (B : exists o, post_level t o).
  { assert (Q : q = 1 \/ q = 2) by lia. destruct Q as [-> | ->];
      destruct t; cbn in Et; try discriminate; eexists; constructor. }
  destruct B as [o Bo]. apply (ext_post _ _ _ G0) with (o := o); [unfold lev; lia|exact Bo].
Qed.
Lemma lang_up : forall j k w, (1 <= j)%nat -> (j <= k <= 15)%nat -> lang k w -> lang j w.
Proof.
  intros j k w H1 H2 H ts E. destruct (H ts E) as [e G]. exists e. apply (gram_up j k); [lia|lia|lia|exact G].
Qed.
Lemma lang_pre : forall j q w, (1 <= j <= 13)%nat -> 1 <= q <= 6 -> lang 13 w -> lang j (q :: w).
Proof.
  intros j q w J L H. apply (lang_up j 13); [lia|lia|]. intros ts E.
  apply map_head in E as (t & r & -> & Et & Er). destruct (H r Er) as [e G].
  assert (B : exists o, pre_level t o).
  { assert (Q : q = 1 \/ q = 2 \/ q = 3 \/ q = 4 \/ q = 5 \/ q = 6) by lia.
    destruct Q as [-> | [-> | [-> | [-> | [-> | ->]]]]];
      destruct t; cbn in Et; try discriminate; eexists; constructor. }
  destruct B as [o Bo]. eexists. exact (G_pre _ _ _ _ Bo G).
Qed.
Lemma lev_range : forall p, (1 <= lev p <= 13)%nat. Proof. intros p. unfold lev. lia. Qed.

(** what a path to the end of its rule has read, by the state it begins in *)
Definition bin_op (q : Z) (k : nat) : Prop := forall t, token_type t = q -> exists o, bin_level t o k.
Definition at_exp (p s : Z) (w : list Z) : Prop :=
  if (16 <=? s) && (s <=? 48) then
    let k := 12 - (s - 16) / 3 in
    match (s - 16) mod 3 with
    | 0 => tail p w
    | 1 => p <= k -> tail p w
    | _ => p <= k -> forall q, bin_op q (Z.to_nat k) -> tail p (q :: w)
    end
  else
  match s with
  | 3 | 60 => w = []
  | 15 | 54 | 57 | 58 | 59 | 61 | 49 | 55 | 56 => tail p w
  | 2 | 8 | 9 | 10 | 12 | 14 => lang (lev p) w
  | 11 | 13 => forall q, 1 <= q <= 6 -> lang (lev p) (q :: w)
  | 50 => p <= 1 -> tail p w
  | 51 => p <= 1 -> tail p (23 :: w)
  | 52 => p <= 1 -> forall w1, lang 1 w1 -> tail p (23 :: w1 ++ w)
  | 53 => p <= 1 -> forall w1, lang 1 w1 -> tail p (23 :: w1 ++ 24 :: w)
  | _ => True
  end.
Definition at_primary (s : Z) (w : list Z) : Prop :=
  match s with
  | 5 | 69 | 65 => w = []
  | 64 => w = [26]
  | 63 => exists w1, w = w1 ++ [26] /\ lang 1 w1
  | 62 | 66 | 67 | 68 | 4 => lang 15 w
  | _ => True
  end.
Definition at_start (s : Z) (w : list Z) : Prop :=
  match s with
  | 1 | 7 => w = []
  | 0 | 6 => lang 1 w
  | _ => True
  end.
Definition meaning (p s : Z) (w : list Z) (u : Z) : Prop :=
  (u = 3 -> at_exp p s w) /\ (u = 5 -> at_primary s w) /\ (u = 1 -> at_start s w).

Definition empties := Eval vm_compute in filter (fun e => (e_kind e =? 1) || (e_kind e =? 6)) (a_edges PA).
Definition readers := Eval vm_compute in filter (fun e => (e_kind e =? 5) || (e_kind e =? 7)) (a_edges PA).
Definition precs := Eval vm_compute in filter (fun e => e_kind e =? 10) (a_edges PA).
Definition calls := Eval vm_compute in filter (fun e => e_kind e =? 3) (a_edges PA).
Lemma in_empties : forall e, In e (a_edges PA) -> e_kind e = 1 \/ e_kind e = 6 -> In e empties.
Proof.
  intros e I H. change empties with (filter (fun e => (e_kind e =? 1) || (e_kind e =? 6)) (a_edges PA)).
  apply filter_In. split; [exact I|lia].
Qed.
Lemma in_readers : forall e k, In e (a_edges PA) -> reads PA e k = true -> In e readers.
Proof.
  intros e k I H. change readers with (filter (fun e => (e_kind e =? 5) || (e_kind e =? 7)) (a_edges PA)).
  apply filter_In. split; [exact I|]. unfold reads in H.
  destruct (e_kind e =? 5); [reflexivity|]. destruct (e_kind e =? 2) eqn:E2.
  - assert (K : forallb (fun e => negb (e_kind e =? 2)) (a_edges PA) = true) by (vm_compute; reflexivity).
    rewrite forallb_forall in K. specialize (K e I). rewrite E2 in K. discriminate.
  - destruct (e_kind e =? 7); [reflexivity|discriminate].
Qed.
Lemma in_precs : forall e, In e (a_edges PA) -> e_kind e = 10 -> In e precs.
Proof.
  intros e I H. change precs with (filter (fun e => e_kind e =? 10) (a_edges PA)).
  apply filter_In. split; [exact I|lia].
Qed.
Lemma in_calls : forall e, In e (a_edges PA) -> e_kind e = 3 -> In e calls.
Proof.
  intros e I H. change calls with (filter (fun e => e_kind e =? 3) (a_edges PA)).
  apply filter_In. split; [exact I|lia].
Qed.
Lemma ends_which : forall r s, ends PA r s -> (r = 0 /\ s = 1) \/ (r = 1 /\ s = 3) \/ (r = 2 /\ s = 5).
Proof.
  intros r s (i & n & E & K & R & ->).
  assert (C : forallb (fun j => match nth_error (a_nodes PA) j with
     | Some n => negb (n_kind n =? 7) || ((n_rule n =? 0) && Nat.eqb j 1)
                 || ((n_rule n =? 1) && Nat.eqb j 3) || ((n_rule n =? 2) && Nat.eqb j 5)
     | None => true end) (seq 0 71) = true) by (vm_compute; reflexivity).
  assert (B : (i < 71)%nat).
  { change 71%nat with (length (a_nodes PA)). apply nth_error_Some. rewrite E. discriminate. }
  rewrite forallb_forall in C. specialize (C i). rewrite E in C.
  specialize (C ltac:(apply in_seq; lia)). lia.
Qed.

Ltac each I := cbv delta [empties readers precs calls] in I; cbn [In] in I;
  repeat match type of I with _ \/ _ => destruct I as [<- | I] | False => destruct I end.
Ltac tidy := cbn [e_src e_trg e_kind e_a1 e_a2 e_a3] in *.
Lemma reads_set : forall e i k, e_kind e = 7 -> reads PA e k = true ->
  nth (Z.to_nat (e_a1 e)) (a_sets PA) [] = [i] -> fst i <= k <= snd i.
Proof.
  intros e i k E R N. unfold reads in R. rewrite E in R. cbn [Z.eqb Pos.eqb] in R. rewrite N in R.
  cbn [existsb] in R. lia.
Qed.
Lemma reads_atom : forall e k, e_kind e = 5 -> reads PA e k = true -> k = e_a1 e.
Proof. intros e k E R. unfold reads in R. rewrite E in R. cbn [Z.eqb Pos.eqb] in R. lia. Qed.
Lemma bin_op_at : forall q k,
  (7 <= q <= 9 /\ k = 12%nat) \/ (3 <= q <= 4 /\ k = 11%nat) \/ (10 <= q <= 11 /\ k = 10%nat) \/
  (12 <= q <= 13 /\ k = 9%nat) \/ (14 <= q <= 15 /\ k = 8%nat) \/ (16 <= q <= 17 /\ k = 7%nat) \/
  (q = 18 /\ k = 6%nat) \/ (q = 19 /\ k = 5%nat) \/ (q = 20 /\ k = 4%nat) \/
  (q = 21 /\ k = 3%nat) \/ (q = 22 /\ k = 2%nat) -> bin_op q k.
Proof.
  intros q k C t E. destruct t; cbn [token_type] in E; subst q; try (exfalso; lia);
  match goal with
  | |- exists o, bin_level KMul o _ => replace k with 12%nat by lia
  | |- exists o, bin_level KDiv o _ => replace k with 12%nat by lia
  | |- exists o, bin_level KMod o _ => replace k with 12%nat by lia
  | |- exists o, bin_level KPlus o _ => replace k with 11%nat by lia
  | |- exists o, bin_level KMinus o _ => replace k with 11%nat by lia
  | |- exists o, bin_level KShr o _ => replace k with 10%nat by lia
  | |- exists o, bin_level KShl o _ => replace k with 10%nat by lia
  | |- exists o, bin_level KGt o _ => replace k with 9%nat by lia
  | |- exists o, bin_level KLt o _ => replace k with 9%nat by lia
  | |- exists o, bin_level KGe o _ => replace k with 8%nat by lia
  | |- exists o, bin_level KLe o _ => replace k with 8%nat by lia
  | |- exists o, bin_level KEq o _ => replace k with 7%nat by lia
  | |- exists o, bin_level KNe o _ => replace k with 7%nat by lia
  | |- exists o, bin_level KAnd o _ => replace k with 6%nat by lia
  | |- exists o, bin_level KXor o _ => replace k with 5%nat by lia
  | |- exists o, bin_level KOr o _ => replace k with 4%nat by lia
  | |- exists o, bin_level KLand o _ => replace k with 3%nat by lia
  | |- exists o, bin_level KLor o _ => replace k with 2%nat by lia
  end; eexists; constructor.
Qed.
Lemma lang_var : lang 15 [27].
Proof.
  intros ts E. apply map_head in E as (t & r & -> & Et & Er). apply map_eq_nil in Er. subst r.
  destruct t; cbn in Et; try discriminate. eexists. constructor.
Qed.
Lemma lang_int : lang 15 [28].
Proof.
  intros ts E. apply map_head in E as (t & r & -> & Et & Er). apply map_eq_nil in Er. subst r.
  destruct t; cbn in Et; try discriminate. eexists. constructor.
Qed.
Lemma lang_paren : forall w, lang 1 w -> lang 15 (25 :: w ++ [26]).
Proof.
  intros w H ts E. apply map_head in E as (t & r & -> & Et & Er).
  apply map_split in Er as (t1 & t2 & -> & E1 & E2).
  apply map_head in E2 as (t' & r' & -> & Et' & Er'). apply map_eq_nil in Er'. subst r'.
  destruct (H t1 E1) as [e G]. destruct t; cbn in Et; try discriminate.
  destruct t'; cbn in Et'; try discriminate. eexists. exact (G_paren _ _ G).
Qed.
Lemma tail_use : forall p w0 w, tail p w -> lang (lev p) w0 -> lang (lev p) (w0 ++ w).
Proof. intros p w0 w H. exact (H w0). Qed.
Lemma lang_any : forall p w, lang 15 w -> lang (lev p) w.
Proof. intros p w H. pose proof (lev_range p). apply (lang_up (lev p) 15); [lia|lia|exact H]. Qed.

Lemma tail_call : forall p q k w1 w2, (2 <= k <= 12)%nat -> p <= Z.of_nat k -> bin_op q k ->
  lang (lev (Z.of_nat k + 1)) w1 -> tail p w2 -> tail p (q :: w1 ++ w2).
Proof.
  intros p q k w1 w2 K L B H1 H2. apply (tail_bin p q k); [exact K|exact L|exact B| |exact H2].
  replace (S k) with (lev (Z.of_nat k + 1)) by (unfold lev; lia). exact H1.
Qed.
Lemma lang_of_low : forall p w, p <= 1 -> lang (lev p) w -> lang 1 w.
Proof. intros p w L H. replace 1%nat with (lev p) by (unfold lev; lia). exact H. Qed.
Lemma lang_of_high : forall p w, 13 <= p -> lang (lev p) w -> lang 13 w.
Proof. intros p w L H. replace 13%nat with (lev p) by (unfold lev; lia). exact H. Qed.
Local Opaque tail lang lev bin_op.
Ltac choose_end E A P T :=
  (split; [|split]); intros E;
  [specialize (A E); clear P T|specialize (P E); clear A T|specialize (T E); clear A P].
Lemma path_meaning : forall p s w u, path PA p s w u -> meaning p s w u.
Proof.
  intros p s w u H. induction H as [p s|p e w u I K H IH|p e k w u I R H IH|p e w u I K L H IH
                                   |p e w1 w2 stop u I K En H1 IH1 H2 IH2].
  - repeat split; intros ->; cbn; reflexivity.
  - apply (in_empties e I) in K. clear I. destruct IH as (A & P & T).
    each K; tidy; choose_end E A P T;
      unfold at_exp, at_primary, at_start in *; cbn in *;
      try assumption; try exact I; try (subst w; apply tail_nil).
  - pose proof (in_readers e k I R) as I'. clear I. destruct IH as (A & P & T).
    each I';
      first [apply reads_atom in R; [|reflexivity]; cbn [e_a1] in R; subst k
            |match type of R with reads PA ?e k = true =>
               pose proof (reads_set e _ k eq_refl R eq_refl) as R'; clear R; rename R' into R end;
             cbn [fst snd] in R];
      tidy; choose_end E A P T;
      unfold at_exp, at_primary, at_start in *; cbn in *; try exact I.
    all: try (intros Lp; apply (A Lp); apply bin_op_at; lia).
    + apply A. lia.
    + apply A. lia.
    + apply tail_post; [exact R|exact A].
    + destruct P as (w1 & -> & P). apply lang_paren, P.
    + subst w. reflexivity.
    + subst w. exact lang_var.
    + subst w. exact lang_int.
  - apply (in_precs e I) in K. clear I. destruct IH as (A & P & T).
    each K; tidy; choose_end E A P T;
      unfold at_exp, at_primary, at_start in *; cbn in *; try exact I; try (exact (A L)); try exact A.
  - pose proof (in_calls e I K) as I'. clear I K. destruct IH2 as (A & P & T).
    apply ends_which in En.
    each I'; tidy;
      first [assert (S3 : stop = 3) by lia|assert (S5 : stop = 5) by lia]; subst stop; clear En;
      choose_end E A P T; destruct IH1 as (B1 & B2 & _);
      first [specialize (B1 eq_refl); clear B2|specialize (B2 eq_refl); clear B1];
      unfold at_exp, at_primary, at_start in *; cbn in *; try exact I.
    all: try (intros Lp q Bq; match type of Bq with bin_op _ (Pos.to_nat ?n) =>
      apply (tail_call p q (Pos.to_nat n)); [lia|lia|exact Bq|exact B1|exact A] end).
    + subst w2. rewrite app_nil_r. apply (lang_of_low 0); [lia|exact B1].
    + apply tail_use; [exact A|]. apply lang_any, B2.
    + intros q Q. rewrite app_comm_cons. apply tail_use; [exact A|].
      apply lang_pre; [apply lev_range|exact Q|]. apply (lang_of_high 14); [lia|exact B1].
    + intros q Q. rewrite app_comm_cons. apply tail_use; [exact A|].
      apply lang_pre; [apply lev_range|exact Q|]. apply (lang_of_high 13); [lia|exact B1].
    + intros Lp. apply (A Lp). apply (lang_of_low 0); [lia|exact B1].
    + intros Lp w0 L0. apply tail_cond; [exact Lp|exact L0| |exact A].
      apply (lang_of_low 1); [lia|exact B1].
    + subst w2. exists w1. split; [reflexivity|]. apply (lang_of_low 0); [lia|exact B1].
Qed.

Lemma table_is_grammar : forall ts,
  describes PA 0 0 (map token_type ts) <-> exists e, gram 1 ts e.
Proof.
  intros ts. split.
  - intros (s & t & stop & E & En & P). cbn in E. injection E as <- <-.
    apply ends_which in En. assert (stop = 1) by lia. subst stop.
    destruct (path_meaning _ _ _ _ P) as (_ & _ & T). specialize (T eq_refl).
    cbn [at_start] in T. exact (T ts eq_refl).
  - intros [e G]. exists 0, 0, 1. split; [reflexivity|]. split; [exact ends_start|].
    apply (by_empty 0 0 6); [reflexivity|].
    apply (by_exp_end 0 6 7 0); [reflexivity| |].
    + apply operand_exp. apply (gram_operand 1 ts e G). lia.
    + apply (by_empty 0 7 1); [reflexivity|apply W_stay].
Qed.

(** ** What one token decides *)
Definition starts (p s k : Z) : Prop :=
  let exp := 1 <= k <= 6 \/ k = 25 \/ k = 27 \/ k = 28 in
  let prim := k = 25 \/ k = 27 \/ k = 28 in
  match s with
  | 16 => p <= 12 /\ 7 <= k <= 9 | 17 => 7 <= k <= 9
  | 19 => p <= 11 /\ 3 <= k <= 4 | 20 => 3 <= k <= 4
  | 22 => p <= 10 /\ 10 <= k <= 11 | 23 => 10 <= k <= 11
  | 25 => p <= 9 /\ 12 <= k <= 13 | 26 => 12 <= k <= 13
  | 28 => p <= 8 /\ 14 <= k <= 15 | 29 => 14 <= k <= 15
  | 31 => p <= 7 /\ 16 <= k <= 17 | 32 => 16 <= k <= 17
  | 34 => p <= 6 /\ k = 18 | 35 => k = 18
  | 37 => p <= 5 /\ k = 19 | 38 => k = 19
  | 40 => p <= 4 /\ k = 20 | 41 => k = 20
  | 43 => p <= 3 /\ k = 21 | 44 => k = 21
  | 46 => p <= 2 /\ k = 22 | 47 => k = 22
  | 49 => p <= 1 /\ k = 23 | 50 => k = 23
  | 55 => p <= 15 /\ 1 <= k <= 2 | 56 => 1 <= k <= 2
  | 15 | 54 | 57 | 58 | 59 | 61 =>
      (p <= 12 /\ 7 <= k <= 9) \/ (p <= 11 /\ 3 <= k <= 4) \/ (p <= 10 /\ 10 <= k <= 11) \/
      (p <= 9 /\ 12 <= k <= 13) \/ (p <= 8 /\ 14 <= k <= 15) \/ (p <= 7 /\ 16 <= k <= 17) \/
      (p <= 6 /\ k = 18) \/ (p <= 5 /\ k = 19) \/ (p <= 4 /\ k = 20) \/ (p <= 3 /\ k = 21) \/
      (p <= 2 /\ k = 22) \/ (p <= 1 /\ k = 23) \/ (p <= 15 /\ 1 <= k <= 2)
  | 3 | 60 | 1 | 7 | 5 | 65 | 69 => False
  | 2 | 14 => exp
  | 4 | 68 | 8 | 9 => prim
  | 10 => 1 <= k <= 4 | 12 => 5 <= k <= 6
  | 62 => k = 25 | 66 => k = 27 | 67 => k = 28
  | _ => True
  end.
Ltac settle := first [assumption|exact eq_refl|tauto|repeat match goal with |- _ /\ _ => split end; (assumption || (split; discriminate) || discriminate)|lia].
Lemma can_start_starts : forall p s k, can_start PA p s k -> starts p s k.
Proof.
  intros p s k H. induction H as [p e k I R|p e k I K H IH|p e k I K L H IH|p e k I K H IH].
  - pose proof (in_readers e k I R) as I'. clear I.
    each I';
      first [apply reads_atom in R; [|reflexivity]; cbn [e_a1] in R; subst k
            |match type of R with reads PA ?e k = true =>
               pose proof (reads_set e _ k eq_refl R eq_refl) as R'; clear R; rename R' into R end;
             cbn [fst snd] in R]; tidy; cbv beta iota zeta delta [starts] in *; try exact I; settle.
  - apply (in_empties e I) in K. clear I.
    each K; tidy; cbv beta iota zeta delta [starts] in *; try exact I; settle.
  - apply (in_precs e I) in K. clear I.
    each K; tidy; cbv beta iota zeta delta [starts] in *; try exact I; settle.
  - apply (in_calls e I) in K. clear I.
    each K; tidy; cbv beta iota zeta delta [starts] in *; try exact I; settle.
Qed.
Lemma one_token_decides : forall p d k a b, In d (a_decisions PA) -> In a (out PA d) -> In b (out PA d) ->
  can_start PA p (e_trg a) k -> can_start PA p (e_trg b) k -> a = b.
Proof.
  intros p d k a b D Ia Ib Ha Hb. apply can_start_starts in Ha, Hb.
  assert (D' : d = 14 \/ d = 57 \/ d = 59 \/ d = 68) by (cbn in D; lia). clear D.
  destruct D' as [-> | [-> | [-> | ->]]]; cbn in Ia, Ib;
  repeat match type of Ia with _ \/ _ => destruct Ia as [<- | Ia] | False => destruct Ia end;
  repeat match type of Ib with _ \/ _ => destruct Ib as [<- | Ib] | False => destruct Ib end;
  try reflexivity; exfalso; tidy; cbv beta iota zeta delta [starts] in *; lia.
Qed.
Lemma start_empty : forall p s t k, existsb (edge_eqb (Edge s t 1 0 0 0)) (a_edges PA) = true ->
  can_start PA p t k -> can_start PA p s k.
Proof. intros p s t k H P. apply (S_empty PA p (Edge s t 1 0 0 0)); [apply has, H|left; reflexivity|exact P]. Qed.
Lemma start_prec : forall p s t q k, existsb (edge_eqb (Edge s t 10 q 0 0)) (a_edges PA) = true ->
  p <= q -> can_start PA p t k -> can_start PA p s k.
Proof. intros p s t q k H L P. apply (S_prec PA p (Edge s t 10 q 0 0)); [apply has, H|reflexivity|exact L|exact P]. Qed.
Lemma start_atom : forall p s t k, existsb (edge_eqb (Edge s t 5 k 0 0)) (a_edges PA) = true -> can_start PA p s k.
Proof.
  intros p s t k H. apply (S_read PA p (Edge s t 5 k 0 0)); [apply has, H|].
  unfold reads. cbn [e_kind e_a1 Z.eqb]. apply Z.eqb_refl.
Qed.
Lemma start_set : forall p s t i k, existsb (edge_eqb (Edge s t 7 i 0 0)) (a_edges PA) = true ->
  existsb (fun i => (fst i <=? k) && (k <=? snd i)) (nth (Z.to_nat i) (a_sets PA) []) = true ->
  can_start PA p s k.
Proof. intros p s t i k H R. apply (S_read PA p (Edge s t 7 i 0 0)); [apply has, H|exact R]. Qed.
Lemma loop_token : forall p t, t <> KErr -> (can_start PA p 59 (token_type t) <-> goes_on p t).
Proof.
  intros p t Ht. split.
  - intros H. apply can_start_starts in H. cbv beta iota zeta delta [starts] in H.
    destruct t; cbn [token_type] in H; try congruence; try (exfalso; lia);
    first [left; split; [reflexivity|lia]
          |right; left; eexists; split; [constructor|lia]
          |right; right; eexists _, _; split; [constructor|lia]].
  - intros [[-> L] | [(o & B & L) | (o & k & B & L)]]; apply (start_empty p 59 57); try reflexivity.
    + apply (start_empty p 57 49); [reflexivity|]. apply (start_prec p 49 50 1); [reflexivity|exact L|].
      apply (start_atom p 50 51). reflexivity.
    + apply (start_empty p 57 55); [reflexivity|]. apply (start_prec p 55 56 15); [reflexivity|exact L|].
      apply (start_set p 56 58 8); [reflexivity|]. destruct B; reflexivity.
    + destruct B; cbn [token_type];
      match type of L with _ <= Z.of_nat ?k =>
        let s := eval vm_compute in (16 + 3 * (12 - Z.of_nat k)) in
        let q := eval vm_compute in (Z.of_nat k) in
        apply (start_empty p 57 s); [reflexivity|];
        apply (start_prec p s (s + 1) q); [reflexivity|exact L|];
        let i := eval vm_compute in (2 + (12 - Z.of_nat k)) in
        first [apply (start_set p (s + 1) (s + 2) i); reflexivity
              |apply (start_atom p (s + 1) (s + 2)); reflexivity]
      end.
Qed.
Lemma first_token : forall p t, t <> KErr -> (can_start PA p 2 (token_type t) <-> opens t).
Proof.
  intros p t Ht. split.
  - intros H. apply can_start_starts in H. cbv beta iota zeta delta [starts] in H.
    destruct t; cbn [token_type] in H; try congruence; try (exfalso; lia);
    first [left; reflexivity|right; left; reflexivity|right; right; left; eexists; reflexivity
          |right; right; right; eexists; constructor].
  - assert (Prim : forall k, can_start PA 0 4 k -> can_start PA p 2 k).
    { intros k H. apply (start_empty p 2 14); [reflexivity|]. apply (start_empty p 14 8); [reflexivity|].
      apply (S_empty PA p (Edge 8 9 6 1 (-1) 0)); [apply has; reflexivity|right; reflexivity|].
      apply (S_rule PA p (Edge 9 15 3 4 2 0)); [apply has; reflexivity|reflexivity|exact H]. }
    intros [-> | [-> | [[ds ->] | [o B]]]].
    + apply Prim. apply (start_empty 0 4 68); [reflexivity|]. apply (start_empty 0 68 62); [reflexivity|].
      apply (start_atom 0 62 63). reflexivity.
    + apply Prim. apply (start_empty 0 4 68); [reflexivity|]. apply (start_empty 0 68 66); [reflexivity|].
      apply (start_atom 0 66 69). reflexivity.
    + apply Prim. apply (start_empty 0 4 68); [reflexivity|]. apply (start_empty 0 68 67); [reflexivity|].
      apply (start_atom 0 67 69). reflexivity.
    + apply (start_empty p 2 14); [reflexivity|].
      destruct B; cbn [token_type];
      first [apply (start_empty p 14 10); [reflexivity|]; apply (start_set p 10 11 0); reflexivity
            |apply (start_empty p 14 12); [reflexivity|]; apply (start_set p 12 13 1); reflexivity].
Qed.
