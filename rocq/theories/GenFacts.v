(** The generated parser and the parser written by hand go in step. *)
From Coq Require Import Lia ZifyBool ZifyNat ZifyN.
From Verif Require Import GoStr GoStrFacts PluralModel PluralSpec PluralLexFacts PluralParseFacts AtnModel AtnSpec
  PluralTextFacts AtnFacts AtnLexFacts AtnParseFacts GenModel GenSpec.
Local Open Scope Z_scope.

(** the stream of a list of tokens: it ends where no token can be read *)
Fixpoint cut (ts : list tok) : stream :=
  match ts with
  | [] => []
  | t :: r => if is_err t then [None] else Some (as_token t) :: cut r
  end.

(** ** What the table says of each token *)
Definition opener (t : tok) : bool :=
  match t with
  | KLP | KN | KInt _ | KInc | KDec | KPlus | KMinus | KTilde | KBang => true
  | _ => false
  end.
Definition bound (t : tok) : option Z :=
  match t with
  | KQ => Some 1
  | _ => match post_tok t with
         | Some _ => Some 15
         | None => match bin_tok t with Some (_, k) => Some (Z.of_nat k) | None => None end
         end
  end.
Definition case_of (t : tok) : Z :=
  match bound t with
  | Some k => if k =? 15 then 13 else 13 - k
  | None => 0
  end.
Definition goes (p : Z) (t : tok) : bool := match bound t with Some k => p <=? k | None => false end.
Definition toks : list tok :=
  [KInc; KDec; KPlus; KMinus; KTilde; KBang; KMul; KDiv; KMod; KShr; KShl; KGt; KLt; KGe; KLe;
   KEq; KNe; KAnd; KXor; KOr; KLand; KLor; KQ; KColon; KLP; KRP; KN; KInt []].
Definition nodes : nat := Eval vm_compute in length (a_nodes PA).
Definition check_tok (p : Z) (t : tok) : bool :=
  (predict PA 2 p (token_type t) =? (if goes p t then 1 else 2)) &&
  (if goes p t then predict PA 1 p (token_type t) =? case_of t else true).
Definition checks (p : Z) : bool := forallb (check_tok p) toks && (predict PA 2 p (-1) =? 2).
Lemma checked : forallb checks (map Z.of_nat (seq 0 16)) = true.
Proof. vm_compute. reflexivity. Qed.
Lemma check_int : forall p ds, check_tok p (KInt ds) = check_tok p (KInt []).
Proof.
  intros p ds. unfold check_tok. replace (goes p (KInt ds)) with (goes p (KInt [])) by reflexivity.
  replace (case_of (KInt ds)) with (case_of (KInt [])) by reflexivity.
  replace (token_type (KInt ds)) with (token_type (KInt [])) by reflexivity. apply eq_refl.
Qed.
Lemma all_toks : forall f : tok -> bool, (forall ds, f (KInt ds) = f (KInt [])) ->
  forallb f toks = true -> forall t, t <> KErr -> f t = true.
Proof.
  intros f Hf H t Ht. pose proof (proj1 (forallb_forall _ _) H) as A.
  destruct t; try congruence; try (apply A; cbn [toks In]; tauto).
  rewrite Hf. apply A. cbn [toks In]. tauto.
Qed.
Lemma all_places : forall f : Z -> bool, forallb f (map Z.of_nat (seq 0 16)) = true ->
  forall p, 0 <= p <= 15 -> f p = true.
Proof.
  intros f H p Hp. apply (proj1 (forallb_forall _ _) H). apply in_map_iff. exists (Z.to_nat p).
  split; [lia|]. apply in_seq. lia.
Qed.
Local Opaque predict check_tok PA.
Lemma check_any : forall p t, 0 <= p <= 15 -> t <> KErr -> check_tok p t = true.
Proof.
  intros p t Hp Ht. pose proof (all_places checks checked p Hp) as C. unfold checks in C.
  apply andb_true_iff in C as [C _]. exact (all_toks (check_tok p) (check_int p) C t Ht).
Qed.
Lemma predicts_end : forall p, 0 <= p <= 15 -> predict PA 2 p (-1) = 2.
Proof.
  intros p Hp. pose proof (all_places checks checked p Hp) as C. unfold checks in C.
  apply andb_true_iff in C as [_ C]. apply Z.eqb_eq, C.
Qed.
Local Transparent check_tok.
Lemma predicts : forall p t, 0 <= p <= 15 -> t <> KErr ->
  predict PA 2 p (token_type t) = (if goes p t then 1 else 2) /\
  (goes p t = true -> predict PA 1 p (token_type t) = case_of t).
Proof.
  intros p t Hp Ht. pose proof (check_any p t Hp Ht) as K. unfold check_tok in K.
  apply andb_true_iff in K as [K1 K2]. split; [apply Z.eqb_eq, K1|].
  intros G. rewrite G in K2. apply Z.eqb_eq, K2.
Qed.
Local Transparent PA.
Lemma leaves_loop : leaves PA (length (a_nodes PA)) 0 59 = true /\ leaves PA (length (a_nodes PA)) 0 61 = true.
Proof. split; vm_compute; reflexivity. Qed.
Lemma sync_loop : forall s ts, s = 59 \/ s = 61 ->
  sync PA s (cut ts) = match ts with t :: _ => negb (is_err t) | [] => true end.
Proof.
  intros s ts H. assert (L : leaves PA (length (a_nodes PA)) 0 s = true)
    by (destruct H as [-> | ->]; apply leaves_loop).
  destruct ts as [|t r]; cbn [cut].
  - unfold sync. rewrite L. apply orb_true_r.
  - destruct (is_err t); [reflexivity|]. unfold sync. rewrite L. apply orb_true_r.
Qed.
Lemma sync_gen : forall A s t r, is_err t = false -> sync A s (cut (t :: r)) =
  begins A (length (a_nodes A)) 0 s (token_type t) || leaves A (length (a_nodes A)) 0 s.
Proof. intros A s t r H. cbn [cut]. rewrite H. reflexivity. Qed.
Definition sync_at (s k : Z) : bool :=
  begins PA (length (a_nodes PA)) 0 s k || leaves PA (length (a_nodes PA)) 0 s.
Lemma sync_cons : forall s t r, is_err t = false -> sync PA s (cut (t :: r)) = sync_at s (token_type t).
Proof. intros s t r H. exact (sync_gen PA s t r H). Qed.
Lemma sync14 : forall t, is_err t = false -> sync_at 14 (token_type t) = opener t.
Proof. intros t H. destruct t; try discriminate; vm_compute; reflexivity. Qed.
Lemma sync14_end : sync PA 14 [] = false.
Proof. vm_compute. reflexivity. Qed.
Lemma sync57 : forall t, bound t <> None -> sync_at 57 (token_type t) = true.
Proof. intros t H. destruct t; try (exfalso; apply H; reflexivity); vm_compute; reflexivity. Qed.
Lemma sync68 : forall t, token_type t = 25 \/ token_type t = 27 \/ token_type t = 28 ->
  sync_at 68 (token_type t) = true.
Proof. intros t [-> | [-> | ->]]; vm_compute; reflexivity. Qed.

(** ** The two parsers in step *)
Definition conv (r : pres exp) : gres tree :=
  match r with POk e r => GOk (tree_of e) (cut r) | PErr => GErr | PFuel => GFuel end.
Local Opaque PA predict sync.

Lemma match_cut : forall k t r, is_err t = false -> token_type t = k ->
  match_ k (cut (t :: r)) = GOk (as_token t) (cut r).
Proof. intros k t r H <-. cbn [cut]. rewrite H. unfold match_, as_token. rewrite Z.eqb_refl. reflexivity. Qed.
Lemma match_not : forall k ts, 1 <= k -> (forall t r, ts = t :: r -> token_type t <> k) ->
  match_ k (cut ts) = GErr.
Proof.
  intros k [|t r] K H; [reflexivity|]. cbn [cut]. destruct (is_err t); [reflexivity|].
  unfold match_, as_token. specialize (H t r eq_refl). destruct (token_type t =? k) eqn:E; [lia|reflexivity].
Qed.
Lemma take_cut : forall ok t r, is_err t = false -> ok (token_type t) = true ->
  take ok (cut (t :: r)) = GOk (as_token t) (cut r).
Proof. intros ok t r H E. cbn [cut]. rewrite H. unfold take, as_token. rewrite E. reflexivity. Qed.
Lemma bop_case_of : forall t o k, bin_tok t = Some (o, k) -> post_tok t = None ->
  t <> KErr /\ bound t = Some (Z.of_nat k) /\
  exists ok, bop_case (case_of t) = Some (Z.of_nat k, ok, Z.of_nat (S k)) /\ ok (token_type t) = true.
Proof.
  intros t o k H P. destruct t; cbn [bin_tok post_tok] in H, P; try discriminate; injection H as <- <-;
    (split; [discriminate|]; split; [reflexivity|]; eexists; split; [reflexivity|reflexivity]).
Qed.
Lemma la_cut : forall t r, is_err t = false -> la (cut (t :: r)) = token_type t.
Proof. intros t r H. cbn [cut]. rewrite H. reflexivity. Qed.
Lemma bin_tree : forall t o k, bin_tok t = Some (o, k) -> bin_text o = t.
Proof. intros t o k H. destruct t; cbn [bin_tok] in H; try discriminate; injection H as <- <-; reflexivity. Qed.
Lemma pre_tree : forall t o k, pre_tok t = Some (o, k) -> pre_text o = t.
Proof. intros t o k H. destruct t; cbn [pre_tok] in H; try discriminate; injection H as <- <-; reflexivity. Qed.
Lemma post_tree : forall t o, post_tok t = Some o -> post_text o = t.
Proof. intros t o H. destruct t; cbn [post_tok] in H; try discriminate; injection H as <-; reflexivity. Qed.
Lemma conv_bind : forall (m : pres exp) (f : exp -> list tok -> pres exp) (g : tree -> stream -> gres tree),
  (forall e r, m = POk e r -> conv (f e r) = g (tree_of e) (cut r)) ->
  conv (match m with POk e r => f e r | PErr => PErr | PFuel => PFuel end) = gbind (conv m) g.
Proof. intros [e r| |] f g H; cbn [conv gbind]; [apply H; reflexivity|reflexivity|reflexivity]. Qed.

Lemma in_step : forall f,
  (forall p ts, (p <= 15)%nat -> gexp PA f (Z.of_nat p) (cut ts) = conv (pexp f p ts)) /\
  (forall p s l ts, (p <= 15)%nat -> s = 59 \/ s = 61 ->
     gloop PA f (Z.of_nat p) s (tree_of l) (cut ts) = conv (ploop f p l ts)).
Proof.
  induction f as [|f [IHe IHl]]; [split; reflexivity|]. split.
  - intros p ts Hp. cbn [gexp pexp]. destruct ts as [|t r].
    { cbn [cut]. rewrite sync14_end. reflexivity. }
    destruct (is_err t) eqn:Er.
    { destruct t; try discriminate. reflexivity. }
    rewrite sync_cons by exact Er. rewrite sync14 by exact Er.
    destruct (opener t) eqn:Op; cbn [negb].
    2: { destruct t; try discriminate; reflexivity. }
    rewrite la_cut by exact Er.
    assert (Pre : forall o q, pre_tok t = Some (o, q) ->
      gbind (GOk (as_token t) (cut r)) (fun t0 r0 =>
        gbind (gexp PA f (Z.of_nat q) r0) (fun e r1 =>
        gloop PA f (Z.of_nat p) 59 (ExpContext (Some t0) None None [Leaf t0; e]) r1)) =
      conv match pexp f q r with
           | POk e r' => ploop f p (EPre o e) r' | PErr => PErr | PFuel => PFuel end).
    { intros o q Q. cbn [gbind]. rewrite (IHe q r) by (apply pre_tok_prec in Q; lia).
      symmetry. apply (conv_bind _ (fun e r' => ploop f p (EPre o e) r')). intros e r' _.
      rewrite <- (IHl p 59 (EPre o e) r') by (try lia; left; reflexivity).
      cbn [tree_of]. rewrite (pre_tree _ _ _ Q). reflexivity. }
    assert (Prim : forall c r', primary PA (gexp PA f 0) (cut (t :: r)) = GOk c r' \/ True) by (intros; right; exact I).
    clear Prim.
    destruct t; try discriminate; cbn [token_type Z.eqb Pos.eqb orb pre_tok];
      try (rewrite take_cut by reflexivity;
           first [exact (Pre _ 14%nat eq_refl)|exact (Pre _ 13%nat eq_refl)]).
    + (* parenthesis *)
      unfold primary. rewrite sync_cons by reflexivity. rewrite sync68 by (left; reflexivity).
      cbn [negb]. rewrite la_cut by reflexivity. cbn [token_type Z.eqb Pos.eqb].
      rewrite match_cut by reflexivity. cbn [gbind].
      change 0 with (Z.of_nat 0) at 1. rewrite (IHe 0%nat r) by lia.
      destruct (pexp f 0 r) as [e r'| |]; cbn [conv gbind]; [|reflexivity|reflexivity].
      destruct r' as [|t r'].
      { rewrite match_not by (try lia; discriminate). reflexivity. }
      destruct (Z.eq_dec (token_type t) 26) as [E | E].
      * destruct t; try discriminate. rewrite match_cut by reflexivity. cbn [gbind].
        apply (IHl p 59 (EParen e) r'); [exact Hp|left; reflexivity].
      * rewrite match_not; [|lia|intros u r0 X; injection X as <- <-; exact E].
        destruct t; try reflexivity. exfalso. apply E. reflexivity.
    + unfold primary. rewrite sync_cons by reflexivity. rewrite sync68 by (right; left; reflexivity).
      cbn [negb]. rewrite la_cut by reflexivity. cbn [token_type Z.eqb Pos.eqb].
      rewrite match_cut by reflexivity. cbn [gbind].
      apply (IHl p 59 EVar r); [exact Hp|left; reflexivity].
    + unfold primary. rewrite sync_cons by reflexivity. rewrite sync68 by (right; right; reflexivity).
      cbn [negb]. rewrite la_cut by reflexivity. cbn [token_type Z.eqb Pos.eqb].
      rewrite match_cut by reflexivity. cbn [gbind].
      apply (IHl p 59 (EInt ds) r); [exact Hp|left; reflexivity].
  - intros p s l ts Hp Hs. cbn [gloop ploop]. rewrite sync_loop by exact Hs.
    destruct ts as [|t r].
    { cbn [negb cut la]. rewrite predicts_end by lia. reflexivity. }
    destruct (is_err t) eqn:Er.
    { destruct t; try discriminate. reflexivity. }
    cbn [negb]. rewrite la_cut by exact Er.
    assert (Ne : t <> KErr) by (intros ->; discriminate).
    destruct (predicts (Z.of_nat p) t ltac:(lia) Ne) as [P2 P1]. rewrite P2.
    destruct (goes (Z.of_nat p) t) eqn:G.
    2: { (* the loop ends *)
      cbn [Z.eqb Pos.eqb]. unfold goes in G.
      assert (E : conv (POk l (t :: r)) = GOk (tree_of l) (cut (t :: r))) by reflexivity.
      rewrite <- E. f_equal.
      destruct t; try discriminate; try congruence; cbn [bound post_tok bin_tok] in *; try reflexivity;
        match goal with |- _ = (if ?b then _ else _) => replace b with false by lia; reflexivity end. }
    specialize (P1 eq_refl). cbn [Z.eqb Pos.eqb]. rewrite P1.
    assert (Bn : bound t <> None) by (unfold goes in G; destruct (bound t); [discriminate|discriminate]).
    rewrite sync_cons by exact Er. rewrite sync57 by exact Bn. cbn [negb].
    destruct (post_tok t) as [o|] eqn:Po; [|destruct (bin_tok t) as [[o k]|] eqn:Bi].
    + assert (Pk : (if Nat.leb p 15 then ploop f p (EPost o l) r else POk l (t :: r)) = ploop f p (EPost o l) r)
        by (replace (Nat.leb p 15) with true by lia; reflexivity).
      assert (X : gloop PA f (Z.of_nat p) 61 (ExpContext None None (Some (as_token t)) [tree_of l; Leaf (as_token t)]) (cut r)
                  = conv (ploop f p (EPost o l) r)).
      { rewrite <- (IHl p 61 (EPost o l) r) by (try lia; right; reflexivity).
        cbn [tree_of]. rewrite (post_tree _ _ Po). reflexivity. }
      destruct t; cbn [post_tok] in Po; try discriminate; injection Po as <-;
        cbv beta iota delta [case_of bound post_tok]; cbn [Z.eqb Pos.eqb bop_case];
        unfold precpred; replace (Z.of_nat p <=? 15) with true by lia; cbn [negb];
        rewrite take_cut by reflexivity; cbn [gbind]; rewrite X, Pk; reflexivity.
    + destruct (bop_case_of t o k Bi Po) as (_ & Bo & ok & Bc & Ok). rewrite Bc.
      unfold goes in G. rewrite Bo in G.
      assert (Pk : conv (if Nat.leb p k then
                    match pexp f (S k) r with
                    | POk b r' => ploop f p (EBin o l b) r'
                    | PErr => PErr | PFuel => PFuel end
                  else POk l (t :: r)) = gbind (gexp PA f (Z.of_nat (S k)) (cut r)) (fun e r0 =>
                    gloop PA f (Z.of_nat p) 61 (ExpContext None (Some (as_token t)) None [tree_of l; Leaf (as_token t); e]) r0)).
      { replace (Nat.leb p k) with true by lia.
        rewrite (IHe (S k) r) by (apply bin_tok_prec in Bi; lia).
        apply (conv_bind _ (fun b r' => ploop f p (EBin o l b) r')). intros b r' _.
        rewrite <- (IHl p 61 (EBin o l b) r') by (try lia; right; reflexivity).
        cbn [tree_of]. rewrite (bin_tree _ _ _ Bi). reflexivity. }
      unfold precpred. rewrite G. cbn [negb]. rewrite take_cut by assumption. cbn [gbind].
      rewrite <- Pk. destruct t; cbn [bin_tok post_tok] in *; try discriminate; injection Bi as <- <-; reflexivity.
    + assert (t = KQ) as -> by (destruct t; cbn [bound post_tok bin_tok] in *; congruence).
      cbv beta iota delta [case_of bound post_tok]. cbn [Z.eqb Pos.eqb bop_case].
      unfold goes in G. cbn [bound] in G.
      change (13 - 1) with 12. cbn [bop_case Z.eqb Pos.eqb].
      unfold precpred. rewrite G. cbn [negb]. replace (Nat.leb p 1) with true by lia.
      rewrite match_cut by reflexivity. cbn [gbind].
      change 0 with (Z.of_nat 0). rewrite (IHe 0%nat r) by lia.
      destruct (pexp f 0 r) as [b r'| |]; cbn [conv gbind]; [|reflexivity|reflexivity].
      destruct r' as [|t r'].
      { rewrite match_not by (try lia; discriminate). reflexivity. }
      destruct (Z.eq_dec (token_type t) 24) as [E | E].
      * destruct t; try discriminate. rewrite match_cut by reflexivity. cbn [gbind].
        change 1 with (Z.of_nat 1). rewrite (IHe 1%nat r') by lia.
        destruct (pexp f 1 r') as [c r''| |]; cbn [conv gbind]; [|reflexivity|reflexivity].
        apply (IHl p 61 (ECond l b c) r''); [exact Hp|right; reflexivity].
      * rewrite match_not; [|lia|intros u r0 X; injection X as <- <-; exact E].
        destruct t; try reflexivity. exfalso. apply E. reflexivity.
Qed.

(** ** The stream of the table is the stream of the lexer written by hand *)
Definition string_of (rs : list Z) : bytes := flat_map (fun r => encode_rune (Z.to_N r)) rs.
Lemma string_small : forall b, (forall c, In c b -> (code c < 128)%N) -> string_of (map zc b) = b.
Proof.
  induction b as [|c b IH]; intros H; [reflexivity|]. unfold string_of in *. cbn [map flat_map].
  rewrite IH by (intros d Id; apply H; right; exact Id).
  assert (L : (code c < 128)%N) by (apply H; left; reflexivity).
  unfold zc. rewrite N2Z.id, encode_rune_ascii by exact L. rewrite byte_of_code. reflexivity.
Qed.
Lemma cut_err : forall t ts, is_err t = true -> cut (t :: ts) = [None].
Proof. intros t ts H. cbn [cut]. rewrite H. reflexivity. Qed.
Lemma cut_cons : forall t ts, is_err t = false -> cut (t :: ts) = Some (as_token t) :: cut ts.
Proof. intros t ts H. cbn [cut]. rewrite H. reflexivity. Qed.
Local Opaque LA start after s_int s_ws reach accepting.
Lemma gturn : forall f rs ty acts (a b : list Z), a <> [] -> rs = a ++ b ->
  scan LA start None 0 rs = Some (ty, acts, length a) ->
  stream_of LA (S f) rs =
  if skips LA acts then stream_of LA f b else Some (ty, string_of a) :: stream_of LA f b.
Proof.
  intros f rs ty acts a b Ha -> H. destruct (a ++ b) as [|r t] eqn:E.
  - destruct a; [congruence|discriminate].
  - cbn [stream_of]. rewrite start_ok, H, <- E, skipn_pre, firstn_pre. reflexivity.
Qed.
Lemma gturn_fail : forall f r t, scan LA start None 0 (r :: t) = None ->
  stream_of LA (S f) (r :: t) = [None].
Proof. intros f r t H. cbn [stream_of]. rewrite start_ok, H. reflexivity. Qed.
Lemma one_single : forall c, is_err (one c) = false -> text (one c) = [c].
Proof.
  intros c H. unfold one in *.
  repeat match goal with
  | |- context [Ascii.eqb c ?x] =>
      let E := fresh in destruct (Ascii.eqb c x) eqn:E;
      [apply Ascii.eqb_eq in E; subst c; reflexivity|]
  end. discriminate.
Qed.
Lemma streams_agree : forall m s f, (length s <= m)%nat -> (length (runes s) <= f)%nat ->
  stream_of LA f (runes s) = cut (lex s).
Proof.
  induction m as [|m IH]; intros s f Hm Hf.
  { destruct s; [|cbn [length] in Hm; lia]. destruct f; reflexivity. }
  destruct s as [|c t]; [destruct f; reflexivity|]. cbn [length] in Hm.
  destruct (N.lt_ge_cases (code c) 128) as [L | L].
  2: { destruct (runes_big c t L) as (r & l & E & R). rewrite E in *. cbn [length] in Hf.
       destruct f as [|f]; [lia|]. rewrite gturn_fail by (apply scan_stuck, big_reach, R).
       destruct (big_not c L) as [W D]. rewrite lex_one; [|exact W|exact D|].
       - rewrite cut_err; [reflexivity|]. rewrite one_big by exact L. reflexivity.
       - destruct t; [exact I|]. apply two_big. left. exact L. }
  destruct f as [|f]; [rewrite runes_small in Hf by exact L; cbn [length] in Hf; lia|].
  destruct (is_ws c) eqn:W; [|destruct (is_digit c) eqn:D].
  - (* blanks *)
    pose proof (stretch_spec is_ws t) as Sp. destruct (stretch is_ws t) as [b t']. destruct Sp as (-> & Hb & Ht).
    assert (E : runes (c :: b ++ t') = map zc (c :: b) ++ runes t').
    { rewrite <- runes_app; [reflexivity|]. intros d [<- | Id]; [exact L|apply ws_small, Hb, Id]. }
    assert (Sc : scan LA start None 0 (runes (c :: b ++ t')) = Some (29, [0], length (map zc (c :: b)))).
    { rewrite E. cbn [map app]. pose proof (proj1 (after_class c L) W) as A.
      rewrite scan_go by (rewrite after_eq, A; exact s_ws_ne). rewrite after_eq. rewrite A, acc_ws.
      rewrite (scan_loop is_ws s_ws 29 [0] s_ws_ne acc_ws).
      - cbn [length]. rewrite map_length. reflexivity.
      - intros d Ld Pd. exact (proj1 (proj2 (proj2 (digit_steps d Ld))) Pd).
      - intros d Ld Pd. exact (proj2 (proj2 (proj2 (digit_steps d Ld))) Pd).
      - exact ws_small.
      - exact Hb.
      - exact Ht. }
    rewrite (gturn f _ _ _ (map zc (c :: b)) (runes t') ltac:(discriminate) E Sc), ws_skip.
    rewrite app_length in Hm. rewrite IH; [|lia|].
    + change (c :: b ++ t') with ((c :: b) ++ t'). rewrite lex_blank.
      * reflexivity.
      * intros d Id. assert (X : is_ws d = true) by (destruct Id as [<- | Id]; [exact W|apply Hb, Id]).
        unfold is_ws in X. apply orb_true_iff in X as [X | X]; apply Ascii.eqb_eq in X; subst d;
          [left|right]; reflexivity.
    + rewrite E, app_length, map_length in Hf. cbn [length] in Hf. lia.
  - (* a number *)
    pose proof (stretch_spec is_digit t) as Sp. destruct (stretch is_digit t) as [b t']. destruct Sp as (-> & Hb & Ht).
    assert (E : runes (c :: b ++ t') = map zc (c :: b) ++ runes t').
    { rewrite <- runes_app; [reflexivity|]. intros d [<- | Id]; [exact L|apply digit_small, Hb, Id]. }
    assert (Sc : scan LA start None 0 (runes (c :: b ++ t')) = Some (28, [], length (map zc (c :: b)))).
    { rewrite E. cbn [map app]. pose proof (proj2 (after_class c L) W D) as A.
      rewrite scan_go by (rewrite after_eq, A; exact s_int_ne). rewrite after_eq. rewrite A, acc_int.
      rewrite (scan_loop is_digit s_int 28 [] s_int_ne acc_int).
      - cbn [length]. rewrite map_length. reflexivity.
      - intros d Ld Pd. exact (proj1 (digit_steps d Ld) Pd).
      - intros d Ld Pd. exact (proj1 (proj2 (digit_steps d Ld)) Pd).
      - exact digit_small.
      - exact Hb.
      - exact Ht. }
    rewrite (gturn f _ _ _ (map zc (c :: b)) (runes t') ltac:(discriminate) E Sc), no_skip.
    rewrite app_length in Hm. rewrite IH; [|lia|].
    + change (c :: b ++ t') with ((c :: b) ++ t'). rewrite lex_digits.
      * rewrite cut_cons by reflexivity. rewrite string_small; [reflexivity|].
        intros d [<- | Id]; [exact L|apply digit_small, Hb, Id].
      * discriminate.
      * intros d [<- | Id]; [exact D|apply Hb, Id].
      * exact Ht.
    + rewrite E, app_length, map_length in Hf. cbn [length] in Hf. lia.
  - (* operators *)
    assert (Single : (forall r l, runes t = r :: l -> reach LA (after c) r = []) ->
      (match t with d :: _ => two c d = None | [] => True end) ->
      stream_of LA (S f) (runes (c :: t)) = cut (lex (c :: t))).
    { intros H1 H2. rewrite runes_small in Hf by exact L. cbn [length] in Hf.
      pose proof (scan_single c (runes t) L W D H1) as Sc. rewrite lex_one by assumption.
      rewrite runes_small by exact L. destruct (is_err (one c)) eqn:Er.
      - rewrite gturn_fail by exact Sc. rewrite cut_err by exact Er. reflexivity.
      - rewrite (gturn f (zc c :: runes t) _ _ [zc c] (runes t) ltac:(discriminate) eq_refl Sc), no_skip.
        rewrite IH by lia. rewrite cut_cons by exact Er. unfold as_token.
        rewrite <- (one_text c Er), string_small; [reflexivity|].
        intros d Id. rewrite (one_single c Er) in Id. destruct Id as [<- | []]. exact L. }
    destruct t as [|d t].
    + apply Single; [intros r l E; discriminate E|exact I].
    + destruct (N.lt_ge_cases (code d) 128) as [L2 | L2].
      * destruct (two c d) as [k|] eqn:T.
        -- destruct (scan_pair c d k (runes t) L L2 W D T) as [Sc Er].
           assert (E : runes (c :: d :: t) = [zc c; zc d] ++ runes t)
             by (rewrite runes_small by exact L; rewrite runes_small by exact L2; reflexivity).
           rewrite E in *. cbn [app] in *.
           rewrite (gturn f (zc c :: zc d :: runes t) _ _ [zc c; zc d] (runes t) ltac:(discriminate) eq_refl Sc), no_skip.
           cbn [length] in Hf, Hm. rewrite IH by lia.
           rewrite (lex_two c d t k) by assumption. rewrite cut_cons by exact Er.
           unfold as_token. rewrite (two_text c d k T).
           change [zc c; zc d] with (map zc [c; d]). rewrite string_small; [reflexivity|].
           intros x [<- | [<- | []]]; assumption.
        -- apply Single; [|reflexivity]. intros r l E. rewrite runes_small in E by exact L2.
           injection E as <- _. apply after_none; assumption.
      * apply Single; [|apply two_big; right; exact L2].
        intros r l E. destruct (runes_big d t L2) as (r' & l' & E' & R). rewrite E' in E.
        injection E as <- _. apply big_reach, R.
Qed.


(** ** The whole parser *)
Fixpoint trim (ts : list tok) : list tok :=
  match ts with [] => [] | t :: r => if is_err t then [t] else t :: trim r end.
Lemma trim_cut : forall ts, cut (trim ts) = cut ts /\ length (trim ts) = length (cut ts) /\
  (length (cut ts) <= length ts)%nat.
Proof.
  induction ts as [|t r (IH1 & IH2 & IH3)]; [repeat split; apply le_n|].
  cbn [trim cut]. destruct (is_err t) eqn:E; cbn [cut length]; rewrite ?E; repeat split; try lia; congruence.
Qed.
Lemma gstart_is : forall ts, gstart PA (cut ts) =
  match parse_start ts with
  | POk e r => GOk (StartContext [tree_of e]) (cut r)
  | PErr => GErr
  | PFuel => GFuel
  end.
Proof.
  intros ts. destruct (trim_cut ts) as (T1 & T2 & T3). unfold gstart.
  set (F := (2 * length (cut ts) + 2)%nat).
  pose proof (proj1 (in_step F) 0%nat ts ltac:(lia)) as E. change (Z.of_nat 0) with 0 in E. rewrite E.
  pose proof (proj1 (in_step F) 0%nat (trim ts) ltac:(lia)) as E'. change (Z.of_nat 0) with 0 in E'.
  rewrite T1, E in E'.
  assert (N : pexp F 0 ts <> PFuel).
  { intros N. rewrite N in E'. cbn [conv] in E'.
    destruct (proj1 (parse_fuel F) 0%nat (trim ts) ltac:(lia)) as [X _].
    destruct (pexp F 0 (trim ts)); [discriminate|discriminate|congruence]. }
  assert (M : parse_start ts = pexp F 0 ts).
  { unfold parse_start. apply (proj1 (parse_mono F)); [exact N|lia]. }
  rewrite M. destruct (pexp F 0 ts); [reflexivity|reflexivity|congruence].
Qed.
Lemma gen_parse_is : forall s, gen_parse s =
  match parse_start (lex s) with
  | POk e r => GOk (StartContext [tree_of e]) (cut r)
  | PErr => GErr
  | PFuel => GFuel
  end.
Proof.
  intros s. unfold gen_parse. rewrite LA_ok, PA_ok.
  rewrite (streams_agree (length s)) by apply le_n. apply gstart_is.
Qed.

(** ** The walk *)
Lemma yield_lits : forall e, Forall tok_ok (yield e) -> lits_ok e.
Proof.
  induction e; cbn [yield lits_ok]; intros H; rewrite ?Forall_app, ?Forall_cons_iff, ?Forall_app, ?Forall_cons_iff in H; tauto.
Qed.
Lemma munch_ok : forall ts s r, munch ts s r -> Forall tok_ok ts.
Proof. intros ts s r H. induction H; constructor; assumption. Qed.
Lemma accepts_lits : forall s e, accepts s e -> lits_ok e.
Proof.
  intros s e (ts & r & M & G & _). apply yield_lits. rewrite <- (gram_yield _ _ _ G). exact (munch_ok _ _ _ M).
Qed.
Definition under (v : Z) (m : option stack) : option (stack * Z) :=
  match m with Some s => Some (s, v) | None => None end.
Lemma exit_bop_is : forall o s (v : Z),
  obind (exit_exp None (label (bin_text o)) None s) (fun s' => Some (s', v)) = under v (handle_bop o s).
Proof.
  intros o s v. unfold exit_exp. cbn [exit_prefix obind].
  assert (E : exit_bop (label (bin_text o)) s = handle_bop o s) by (destruct o; reflexivity).
  rewrite E. destruct (handle_bop o s); reflexivity.
Qed.
Lemma exit_cond_is : forall s (v : Z),
  obind (exit_exp None (label KQ) None s) (fun s' => Some (s', v)) = Some (handle_cond s, v).
Proof. intros s v. reflexivity. Qed.
Lemma exit_pre_is : forall o s (v : Z),
  obind (exit_exp (label (pre_text o)) None None s) (fun s' => Some (s', v)) = Some (handle_prefix o s, v).
Proof. intros o s v. destruct o; reflexivity. Qed.
Lemma exit_post_is : forall o s (v : Z),
  obind (exit_exp None None (label (post_text o)) s) (fun s' => Some (s', v)) = Some (handle_postfix o s, v).
Proof. intros o s v. destruct o; reflexivity. Qed.
Lemma exit_none_is : forall s (v : Z),
  obind (exit_exp None None None s) (fun s' => Some (s', v)) = Some (s, v).
Proof. intros s v. reflexivity. Qed.
Lemma gwalk_is : forall n e s v, lits_ok e -> gwalk n (tree_of e) (s, v) = under v (walk n e s).
Proof.
  intros n. induction e as [ds| |e IH|o e IH|o e IH|o a IHa b IHb|a IHa b IHb c IHc];
    intros s v L; cbn [lits_ok] in L; cbn [tree_of gwalk walk leaf].
  - destruct ds as [|c ds]; [destruct L as [L _]; congruence|].
    cbn [obind]. unfold exit_primary. cbn [fst as_token snd text flat_map leaf get_text].
    assert (D : (48 <= code c <= 57)%N) by (apply L; left; reflexivity).
    destruct (beq (c :: ds) (B "n")) eqn:E1.
    { apply beq_eq in E1. injection E1 as -> ->. vm_compute in D. destruct D as [_ D]. congruence. }
    destruct (beq (c :: ds) (B "(")) eqn:E2.
    { apply beq_eq in E2. injection E2 as -> ->. vm_compute in D. destruct D as [D _]. congruence. }
    rewrite app_nil_r. destruct (parse_int (c :: ds)); reflexivity.
  - reflexivity.
  - cbn [obind]. rewrite (IH s v L). destruct (walk n e s); reflexivity.
  - rewrite (IH s v L). destruct (walk n e s) as [s1|]; [|reflexivity]. cbn [under obind fst snd].
    apply exit_post_is.
  - cbn [obind]. rewrite (IH s v L). destruct (walk n e s) as [s1|]; [|reflexivity]. cbn [under obind fst snd].
    apply exit_pre_is.
  - destruct L as [La Lb]. rewrite (IHa s v La). destruct (walk n a s) as [s1|]; [|reflexivity].
    cbn [under obind]. rewrite (IHb s1 v Lb). destruct (walk n b s1) as [s2|]; [|reflexivity].
    cbn [under obind fst snd]. apply exit_bop_is.
  - destruct L as (La & Lb & Lc). rewrite (IHa s v La). destruct (walk n a s) as [s1|]; [|reflexivity].
    cbn [under obind]. rewrite (IHb s1 v Lb). destruct (walk n b s1) as [s2|]; [|reflexivity].
    cbn [under obind]. rewrite (IHc s2 v Lc). destruct (walk n c s2) as [s3|]; [|reflexivity].
    cbn [under obind fst snd]. apply exit_cond_is.
Qed.
Lemma gen_eval_is : forall s n, gen_eval s n = eval s n.
Proof.
  intros s n. unfold gen_eval, eval. f_equal.
  destruct (assoc_bytes (remove_byte SP s) commons) as [g|]; [reflexivity|].
  rewrite gen_parse_is. unfold eval_general.
  destruct (parse_start (lex s)) as [e r| |] eqn:E; [|reflexivity|reflexivity].
  assert (L : lits_ok e) by (apply (accepts_lits s), parse_iff_accepts; exists r; exact E).
  cbn [gwalk]. pose proof (gwalk_is n e [] 0 L) as W.
  match goal with |- context [gwalk n (tree_of e) ?x] => change x with (([] : stack), 0) end. rewrite W.
  destruct (walk n e []) as [st|]; [|reflexivity].
  cbn [under obind fst]. destruct (pop st) as [v st']. reflexivity.
Qed.
(** the texts of the leaves *)
Lemma get_text_is : forall e, get_text (tree_of e) = flat_map text (yield e).
Proof.
  induction e; cbn [tree_of get_text yield flat_map leaf as_token snd text];
    rewrite ?flat_map_app; cbn [flat_map text]; rewrite ?flat_map_app; cbn [flat_map text];
    rewrite ?app_nil_r, ?app_assoc; try congruence.
Qed.
