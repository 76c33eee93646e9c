(** Catalog properties C07-C11 and C13. *)
From Verif Require Import GoStr GoStrFacts GoMap PluralModel PluralSpec PluralEvalFacts FileModel FileSpec FormsFacts FileFacts.
From Coq Require Import Lia ZifyBool ZifyNat ZifyN.
Local Open Scope Z_scope.

(** ** C07 *)
(** Values nplurals=<digit>; plural=<expression>; give that rule ...
    Partial: the number must have one digit. *)
Theorem C07_understood_partial : forall v d exp, forms_value v d exp ->
  parse_plural v = {| p_total := d; p_expr := Some exp |}.
Proof. exact parse_plural_rule. Qed.
(** ... in every catalog whose header has such a line ... *)
Theorem C07_catalog_partial : forall (A : Type) (fmt : bytes -> list A -> bytes) os t v d exp,
  header_text os t -> header_value t (B "Plural-Forms") = Some v -> forms_value v d exp ->
  f_plural (init_plural (run fmt os)) = Some {| p_total := d; p_expr := Some exp |}.
Proof. intros A fmt os t v d exp Ht Hv F. apply rule_state. exists t, v. auto. Qed.
(** ... and any other value means that there is no rule: plural lookups answer
    with the source texts. *)
Theorem C07_other_values : forall v, (forall d exp, ~ forms_value v d exp) ->
  parse_plural v = {| p_total := 0; p_expr := None |}.
Proof. exact parse_plural_none. Qed.
Theorem C07_no_rule : forall (A : Type) (fmt : bytes -> list A -> bytes) os t c i i2 n args,
  header_text os t ->
  (forall v d exp, header_value t (B "Plural-Forms") = Some v -> ~ forms_value v d exp) ->
  (forall e, last_def os c i e -> plural_entry e) ->
  exists r, fst (f_xn64 fmt (run fmt os) c i i2 n args) = XStr r /\ english fmt i i2 n args r.
Proof.
  intros A fmt os t c i i2 n args Ht N P. exists (default_plural fmt i i2 n args). split; [|apply english_default].
  assert (R : forall d exp, ~ rule os d exp).
  { intros d exp (t' & v & Ht' & Hv & F). rewrite (header_text_fun _ _ _ Ht' Ht) in Hv. exact (N v d exp Hv F). }
  destruct (last_or_none os c i) as [[e L]|D].
  - exact (xn_norule fmt os c i i2 n args e L (P e L) R).
  - exact (xn_missing fmt os c i i2 n args D).
Qed.
(** The full claim is false: a number of two digits is not understood. *)
Theorem C07_two_digits_refuted :
  exists v, v = B "nplurals=" ++ dec_Z 12 ++ B "; plural=" ++ B "n" ++ B ";"
    /\ parse_plural v = {| p_total := 0; p_expr := None |}.
Proof. eexists. split; [reflexivity|vm_compute; reflexivity]. Qed.
Example C07_case : forms_value (B " nplurals = 3 ;plural= n%10==1 ? 0 : 2;") 3 (B "n%10==1 ? 0 : 2").
Proof.
  exists (B " "), (B " "), (B " "), (B " "), [], [], (B " "), [].
  repeat split; try lia.
  - intros b H c I. cbn in H. unfold blank.
    repeat (destruct H as [<-|H]; [cbn in I; destruct I as [<-|[]] || destruct I; cbn; tauto|]). destruct H.
  - intros H. cbn in H. repeat (destruct H as [H|H]; [discriminate|]). exact H.
  - intros c t [= <- _] H. cbn in H. repeat (destruct H as [H|H]; [discriminate|]). exact H.
  - left. reflexivity.
Qed.
Example C07_case_other : forall d exp, ~ forms_value (B "nplurals=2; plural=n != 1") d exp.
Proof. intros d exp H. apply parse_plural_rule in H. vm_compute in H. discriminate. Qed.
Print Assumptions C07_understood_partial.
Print Assumptions C07_catalog_partial.
Print Assumptions C07_other_values.
Print Assumptions C07_no_rule.
Print Assumptions C07_two_digits_refuted.

(** A catalog used in the examples below. *)
Definition ex_header : entry :=
  {| e_cmts := []; e_ctxt := []; e_id := []; e_plural := false; e_id2 := [];
     e_str := B "Language: xx" ++ NL :: B "Plural-Forms: nplurals=2; plural=n != 1;" ++ [NL]; e_strn := [] |}.
Definition ex_entry (c i i2 s : bytes) (sn : list bytes) : entry :=
  {| e_cmts := []; e_ctxt := c; e_id := i; e_plural := negb (is_empty i2); e_id2 := i2; e_str := s; e_strn := sn |}.
Definition ex_ops : list (fop nat) :=
  [OAdd (ex_entry [] (B "Hi") [] (B "Salut") []); OAdd ex_header; OLang;
   OAdd (ex_entry [] (B "dog") (B "dogs") [] [B "chien"; B "chiens"]);
   OX [] (B "Hi") []; OAdd (ex_entry (B "menu") (B "Hi") [] (B "Bonjour") []);
   OAdd (ex_entry [] (B "cat") (B "cats") [] [B "chat"])].
Definition ex_fmt (s : bytes) (args : list nat) : bytes := s.
Lemma ex_text : header_text ex_ops (e_str ex_header).
Proof.
  apply (H_then ex_ops [OAdd (ex_entry [] (B "Hi") [] (B "Salut") [])] (OAdd ex_header)
    [OLang; OAdd (ex_entry [] (B "dog") (B "dogs") [] [B "chien"; B "chiens"]);
     OX [] (B "Hi") []; OAdd (ex_entry (B "menu") (B "Hi") [] (B "Bonjour") []);
     OAdd (ex_entry [] (B "cat") (B "cats") [] [B "chat"])]); [reflexivity| |reflexivity|].
  - intros [|x os1] o os2 E; [injection E as <- _; cbn; discriminate|]. destruct os1; discriminate.
  - left. exists ex_header. split; [|reflexivity].
    eexists [_], _, []. split; [reflexivity|]. split; [repeat split; reflexivity|]. intros ? ? [].
Qed.
Lemma ex_rule : rule ex_ops 2 (B "n != 1").
Proof.
  exists (e_str ex_header), (B "nplurals=2; plural=n != 1;"). split; [exact ex_text|]. split; [vm_compute; reflexivity|].
  exists [], [], [], [], (B " "), [], [], []. repeat split; try lia.
  - intros b H c I. cbn in H. unfold blank.
    repeat (destruct H as [<-|H]; [cbn in I; first [destruct I as [<-|[]]; cbn; tauto | destruct I]|]). destruct H.
  - intros H. cbn in H. repeat (destruct H as [H|H]; [discriminate|]). exact H.
  - intros c t [= <- _] H. cbn in H. repeat (destruct H as [H|H]; [discriminate|]). exact H.
  - left. reflexivity.
Qed.
Lemma ex_last (c i : bytes) os1 e os2 : ex_ops = os1 ++ OAdd e :: os2 -> joined (e_ctxt e) (e_id e) = joined c i ->
  forallb (fun o => match o with OAdd e' => negb (beq (joined (e_ctxt e') (e_id e')) (joined c i)) | _ => true end) os2 = true ->
  last_def ex_ops c i e.
Proof.
  intros E H F. exists os1, (OAdd e), os2. split; [exact E|]. split; [split; [reflexivity|exact H]|].
  intros o' e' I (-> & J). rewrite forallb_forall in F. specialize (F _ I). cbn beta iota in F.
  rewrite J, beq_refl in F. discriminate.
Qed.

(** ** C08 *)
(** X answers with the translation of the message last added under the name
    asked for, or with the id, where names are compared as gettext joins them,
    for every history, context and id ... *)
Theorem C08_translation : forall (A : Type) (fmt : bytes -> list A -> bytes) os c i args e,
  last_def os c i e -> e_str e <> [] -> f_x fmt (run fmt os) c i args = fmt (e_str e) args.
Proof. intros A fmt os c i args e. apply x_found. Qed.
Theorem C08_source : forall (A : Type) (fmt : bytes -> list A -> bytes) os c i args,
  (forall e, last_def os c i e -> e_str e = []) -> f_x fmt (run fmt os) c i args = fmt i args.
Proof. intros A fmt os c i args. apply x_missing. Qed.
(** ... so it is the message with exactly this context and id.
    Partial: only for names that the separator byte 0x04 cannot confuse. *)
Theorem C08_translation_exact_partial : forall (A : Type) (fmt : bytes -> list A -> bytes) os c i args e,
  names_ok os c i -> last_exact os c i e -> e_str e <> [] ->
  f_x fmt (run fmt os) c i args = fmt (e_str e) args.
Proof. intros A fmt os c i args e Ok L. apply x_found, last_def_exact; assumption. Qed.
Theorem C08_source_exact_partial : forall (A : Type) (fmt : bytes -> list A -> bytes) os c i args,
  names_ok os c i -> (forall e, last_exact os c i e -> e_str e = []) ->
  f_x fmt (run fmt os) c i args = fmt i args.
Proof.
  intros A fmt os c i args Ok H. apply x_missing. intros e L. apply H, last_def_exact; assumption.
Qed.
(** Without that condition the claim is false: a message of another name answers. *)
Theorem C08_separator_refuted : exists (os : list (fop nat)) c i,
  no_exact os c i /\ f_x ex_fmt (run ex_fmt os) c i [] <> i.
Proof.
  exists [OAdd (ex_entry (B "a") (B "b" ++ EOT :: B "c") [] (B "x") [])], (B "a" ++ EOT :: B "b"), (B "c").
  split; [|vm_compute; discriminate].
  intros o e [<-|[]] ([= <-] & H & _). discriminate H.
Qed.
Lemma ex_names : names_ok ex_ops (B "menu") (B "Hi").
Proof. split; [|left]; intros H; cbn in H; repeat (destruct H as [H|H]; [discriminate|]); exact H. Qed.
Example C08_case : names_ok ex_ops (B "menu") (B "Hi")
  /\ last_def ex_ops (B "menu") (B "Hi") (ex_entry (B "menu") (B "Hi") [] (B "Bonjour") [])
  /\ last_exact ex_ops (B "menu") (B "Hi") (ex_entry (B "menu") (B "Hi") [] (B "Bonjour") [])
  /\ f_x ex_fmt (run ex_fmt ex_ops) (B "menu") (B "Hi") [] = B "Bonjour".
Proof.
  assert (L : last_def ex_ops (B "menu") (B "Hi") (ex_entry (B "menu") (B "Hi") [] (B "Bonjour") [])).
  { refine (ex_last (B "menu") (B "Hi") (firstn 5 ex_ops) _ (skipn 6 ex_ops) _ _ _); reflexivity. }
  split; [exact ex_names|]. split; [exact L|]. split; [apply (last_def_exact _ _ _ _ ex_names), L|vm_compute; reflexivity].
Qed.
Print Assumptions C08_translation.
Print Assumptions C08_source.
Print Assumptions C08_translation_exact_partial.
Print Assumptions C08_source_exact_partial.
Print Assumptions C08_separator_refuted.

(** ** C09 *)
(** The form designated by the rule is returned (names as gettext joins them,
    see C08) ... *)
Theorem C09_selected : forall (A : Type) (fmt : bytes -> list A -> bytes) os c i i2 n args e d exp j s,
  last_def os c i e -> rule os d exp ->
  eval exp n = EvOk j -> 0 <= j < d -> nth_error (e_strn e) (Z.to_nat j) = Some s -> s <> [] ->
  fst (f_xn64 fmt (run fmt os) c i i2 n args) = XStr (fmt s args).
Proof.
  intros A fmt os c i i2 n args e d exp j s L R E Hj Hs Ns.
  assert (P : plural_entry e) by (intros [_ H]; rewrite H in Hs; destruct (Z.to_nat j); discriminate).
  rewrite (xn_rule fmt os c i i2 n args e d exp L P R), E.
  assert (Hl : (Z.to_nat j < length (e_strn e))%nat) by (apply nth_error_Some; congruence).
  destruct (Z.ltb_spec j 0); [lia|]. destruct (j >=? d) eqn:E1; [lia|]. destruct (j >? _) eqn:E2; [lia|].
  cbn [orb]. rewrite Hs. destruct s; [congruence|reflexivity].
Qed.
(** ... in all other cases (no panic, see C10) of a plural entry the source
    texts are used with the English rule ... *)
Theorem C09_fallback : forall (A : Type) (fmt : bytes -> list A -> bytes) os c i i2 n args,
  (no_def os c i
   \/ exists e, last_def os c i e /\ ~ (e_id2 e = [] /\ e_strn e = [])
      /\ ((forall d exp, ~ rule os d exp)
          \/ exists d exp, rule os d exp
             /\ ((forall j, eval exp n <> EvOk j)
                 \/ exists j, eval exp n = EvOk j
                    /\ (j < 0 \/ d <= j \/ Z.of_nat (length (e_strn e)) < j \/ nth_error (e_strn e) (Z.to_nat j) = Some [])))) ->
  exists r, fst (f_xn64 fmt (run fmt os) c i i2 n args) = XStr r /\ english fmt i i2 n args r.
Proof.
  intros A fmt os c i i2 n args H. exists (default_plural fmt i i2 n args). split; [|apply english_default].
  destruct H as [N|(e & L & P & [N|(d & exp & R & H)])].
  - exact (xn_missing fmt os c i i2 n args N).
  - exact (xn_norule fmt os c i i2 n args e L P N).
  - rewrite (xn_rule fmt os c i i2 n args e d exp L P R).
    destruct H as [H|(j & -> & H)]; [destruct (eval exp n) as [j| | |]; try reflexivity; destruct (H j eq_refl)|].
    destruct (j <? 0) eqn:E1; [reflexivity|]. destruct (j >=? d) eqn:E2; [reflexivity|].
    destruct (j >? Z.of_nat (length (e_strn e))) eqn:E3; [reflexivity|]. cbn [orb].
    destruct H as [H|[H|[H| ->]]]; try lia. reflexivity.
Qed.
(** ... and an entry without plural forms answers with its singular translation. *)
Theorem C09_singular : forall (A : Type) (fmt : bytes -> list A -> bytes) os c i i2 n args e,
  last_def os c i e -> e_id2 e = [] -> e_strn e = [] ->
  fst (f_xn64 fmt (run fmt os) c i i2 n args) = XStr (fmt (match e_str e with [] => i | s => s end) args).
Proof. intros A fmt os c i i2 n args e. apply xn_single. Qed.
Example C09_case : rule ex_ops 2 (B "n != 1") /\ eval (B "n != 1") 5 = EvOk 1
  /\ last_def ex_ops [] (B "dog") (ex_entry [] (B "dog") (B "dogs") [] [B "chien"; B "chiens"])
  /\ fst (f_xn64 ex_fmt (run ex_fmt ex_ops) [] (B "dog") (B "dogs") 5 []) = XStr (B "chiens")
  /\ fst (f_xn64 ex_fmt (run ex_fmt ex_ops) [] (B "cow") (B "cows") 5 []) = XStr (B "cows").
Proof.
  split; [exact ex_rule|]. split; [vm_compute; reflexivity|].
  split; [|split; vm_compute; reflexivity].
  refine (ex_last [] (B "dog") (firstn 3 ex_ops) _ (skipn 4 ex_ops) _ _ _); reflexivity.
Qed.
Print Assumptions C09_selected.
Print Assumptions C09_fallback.
Print Assumptions C09_singular.

(** ** C10 *)
(** The claim is false: an entry with fewer forms than the rule needs makes the
    lookup panic ... *)
Theorem C10_panic_refuted : exists (os : list (fop nat)) c i i2 n,
  in_int64 n = true /\ fst (f_xn64 ex_fmt (run ex_fmt os) c i i2 n []) = XPanic.
Proof.
  exists ex_ops, [], (B "cat"), (B "cats"), 5. split; vm_compute; reflexivity.
Qed.
(** ... exactly when the rule's index is the number of forms present. *)
Theorem C10_panics_exactly : forall (A : Type) (fmt : bytes -> list A -> bytes) os c i i2 n args,
  (fst (f_xn64 fmt (run fmt os) c i i2 n args) = XPanic <->
   exists e d exp, last_def os c i e /\ ~ (e_id2 e = [] /\ e_strn e = []) /\ rule os d exp
     /\ eval exp n = EvOk (Z.of_nat (length (e_strn e))) /\ Z.of_nat (length (e_strn e)) < d).
Proof.
  intros A fmt os c i i2 n args. split.
  - intros H. destruct (last_or_none os c i) as [[e L]|N].
    + assert (P : plural_entry e).
      { intros [E1 E2]. rewrite (xn_single fmt os c i i2 n args e L E1 E2) in H. discriminate. }
      destruct (rule_cases fmt os) as [(d & exp & R & _)|[R _]].
      * exists e, d, exp. rewrite (xn_rule fmt os c i i2 n args e d exp L P R) in H.
        destruct (eval exp n) as [j| | |]; try discriminate.
        destruct (j <? 0) eqn:E1; [discriminate|]. destruct (j >=? d) eqn:E2; [discriminate|].
        destruct (j >? Z.of_nat (length (e_strn e))) eqn:E3; [discriminate|]. cbn [orb] in H.
        destruct (nth_error (e_strn e) (Z.to_nat j)) as [[|? ?]|] eqn:Ne; try discriminate.
        apply nth_error_None in Ne. assert (j = Z.of_nat (length (e_strn e))) as -> by lia.
        repeat split; auto. lia.
      * rewrite (xn_norule fmt os c i i2 n args e L P R) in H. discriminate.
    + rewrite (xn_missing fmt os c i i2 n args N) in H. discriminate.
  - intros (e & d & exp & L & P & R & E & Hd).
    rewrite (xn_rule fmt os c i i2 n args e d exp L P R), E.
    destruct (Z.ltb_spec (Z.of_nat (length (e_strn e))) 0); [lia|].
    destruct (Z.of_nat (length (e_strn e)) >=? d) eqn:E1; [lia|].
    destruct (Z.of_nat (length (e_strn e)) >? Z.of_nat (length (e_strn e))) eqn:E2; [lia|]. cbn [orb].
    rewrite Nat2Z.id. destruct (nth_error (e_strn e) (length (e_strn e))) eqn:Ne; [|reflexivity].
    assert (nth_error (e_strn e) (length (e_strn e)) <> None) by congruence. apply nth_error_Some in H0. lia.
Qed.
(** Hence a catalog whose plural entries have as many forms as the rule announces
    (as every complete translation has) never panics. *)
Theorem C10_complete_catalogs : forall (A : Type) (fmt : bytes -> list A -> bytes) os c i i2 n args,
  (forall e d exp, last_def os c i e -> rule os d exp -> e_strn e <> [] \/ e_id2 e <> [] -> d <= Z.of_nat (length (e_strn e))) ->
  exists r, fst (f_xn64 fmt (run fmt os) c i i2 n args) = XStr r.
Proof.
  intros A fmt os c i i2 n args H.
  destruct (fst (f_xn64 fmt (run fmt os) c i i2 n args)) as [r|] eqn:E; [eauto|exfalso].
  apply C10_panics_exactly in E. destruct E as (e & d & exp & L & P & R & _ & Hd).
  assert (e_strn e <> [] \/ e_id2 e <> []) by (destruct (e_strn e), (e_id2 e); auto; try (left; discriminate); right; discriminate).
  specialize (H e d exp L R H0). lia.
Qed.
Example C10_case : rule ex_ops 2 (B "n != 1")
  /\ last_def ex_ops [] (B "dog") (ex_entry [] (B "dog") (B "dogs") [] [B "chien"; B "chiens"])
  /\ (forall e d exp, last_def ex_ops [] (B "dog") e -> rule ex_ops d exp -> e_strn e <> [] \/ e_id2 e <> [] -> d <= Z.of_nat (length (e_strn e))).
Proof.
  assert (L : last_def ex_ops [] (B "dog") (ex_entry [] (B "dog") (B "dogs") [] [B "chien"; B "chiens"])).
  { refine (ex_last [] (B "dog") (firstn 3 ex_ops) _ (skipn 4 ex_ops) _ _ _); reflexivity. }
  split; [exact ex_rule|]. split; [exact L|]. intros e d exp L' R _.
  rewrite (last_def_fun _ _ _ _ _ L' L). cbn.
  pose proof (rule_state ex_fmt ex_ops _ _ R) as S1. pose proof (rule_state ex_fmt ex_ops _ _ ex_rule) as S2.
  rewrite S1 in S2. injection S2 as -> _. lia.
Qed.
Print Assumptions C10_panic_refuted.
Print Assumptions C10_panics_exactly.
Print Assumptions C10_complete_catalogs.

(** ** C11 *)
(** Adding a message leaves the answers for every other message alone, singular
    ones (any added message) ... *)
Theorem C11_isolated : forall (A : Type) (fmt : bytes -> list A -> bytes) os e c i args,
  joined (e_ctxt e) (e_id e) <> joined c i ->
  f_x fmt (run fmt (os ++ [OAdd e])) c i args = f_x fmt (run fmt os) c i args.
Proof.
  intros A fmt os e c i args D. unfold f_x. rewrite run_snoc, step_entries.
  rewrite (GoMapFacts.mget_put_other); [reflexivity|]. intros K. apply D. symmetry. exact K.
Qed.
(** ... and plural ones (any added message that is not a header) ... *)
Theorem C11_isolated_plural : forall (A : Type) (fmt : bytes -> list A -> bytes) os e c i i2 n args,
  joined (e_ctxt e) (e_id e) <> joined c i -> e_id e <> [] ->
  fst (f_xn64 fmt (run fmt (os ++ [OAdd e])) c i i2 n args) = fst (f_xn64 fmt (run fmt os) c i i2 n args).
Proof. intros A fmt os e c i i2 n args D N. rewrite run_snoc. apply add_xn; assumption. Qed.
(** ... where names are compared as gettext joins them; by context and id:
    Partial: names that the separator byte cannot confuse. *)
Theorem C11_isolated_exact_partial : forall (A : Type) (fmt : bytes -> list A -> bytes) os e c i i2 n args,
  names_ok (os ++ [OAdd e]) c i -> (e_ctxt e, e_id e) <> (c, i) ->
  f_x fmt (run fmt (os ++ [OAdd e])) c i args = f_x fmt (run fmt os) c i args
  /\ (e_id e <> [] -> fst (f_xn64 fmt (run fmt (os ++ [OAdd e])) c i i2 n args) = fst (f_xn64 fmt (run fmt os) c i i2 n args)).
Proof.
  intros A fmt os e c i i2 n args [Hc Hi] D.
  assert (J : joined (e_ctxt e) (e_id e) <> joined c i).
  { intros K. symmetry in K. apply key_inj in K as [Kc Ki]; [congruence|exact Hc|]. destruct Hi as [Hi|Hi]; [auto|right].
    apply Hi, in_or_app. right. left. reflexivity. }
  split; [apply C11_isolated, J|intros N; apply C11_isolated_plural; assumption].
Qed.
(** ... two names have one slot exactly if they are equal, when the separator
    occurs in no context ... *)
Theorem C11_names_partial : forall c i c' i', ~ In EOT c -> ~ In EOT c' -> (key c i = key c' i' <-> c = c' /\ i = i').
Proof. intros c i c' i' H H'. split; [apply key_inj; auto|intros [-> ->]; reflexivity]. Qed.
(** ... and if it does occur, different messages overwrite one another. *)
Theorem C11_separator_refuted : exists e1 e2, (e_ctxt e1, e_id e1) <> (e_ctxt e2, e_id e2)
  /\ f_x ex_fmt (run ex_fmt [OAdd e1; OAdd e2]) (e_ctxt e1) (e_id e1) [] = e_str e2 /\ e_str e1 <> e_str e2.
Proof.
  exists (ex_entry (B "a") (B "b" ++ EOT :: B "c") [] (B "x") []), (ex_entry (B "a" ++ EOT :: B "b") (B "c") [] (B "y") []).
  split; [discriminate|]. split; [vm_compute; reflexivity|discriminate].
Qed.
Example C11_case : names_ok (ex_ops ++ [OAdd (ex_entry [] (B "Hi") [] (B "Allo") [])]) (B "menu") (B "Hi").
Proof. split; [|left]; intros H; cbn in H; repeat (destruct H as [H|H]; [discriminate|]); exact H. Qed.
Print Assumptions C11_isolated.
Print Assumptions C11_isolated_plural.
Print Assumptions C11_isolated_exact_partial.
Print Assumptions C11_names_partial.
Print Assumptions C11_separator_refuted.

(** ** C13 *)
(** Headers are read from the header entry, once ([header_text]): at the first
    operation that needs them. *)
Theorem C13_headers : forall (A : Type) (fmt : bytes -> list A -> bytes) os t k,
  header_text os t -> fst (get_header k (run fmt os)) = header_value t k.
Proof. intros A fmt os t k. apply run_header. Qed.
(** The header entry is the one with the empty context and the empty id. *)
Theorem C13_header_entry : forall (A : Type) (os : list (fop A)) e,
  last_def os [] [] e -> e_ctxt e = [] /\ e_id e = [] /\ In (OAdd e) os.
Proof.
  intros A os e (os1 & o & os2 & -> & (-> & J) & _). apply joined_header in J as [-> ->].
  split; [reflexivity|]. split; [reflexivity|]. apply in_or_app. right. left. reflexivity.
Qed.
Theorem C13_header_text_unique : forall (A : Type) (os : list (fop A)) t t',
  header_text os t -> header_text os t' -> t = t'.
Proof. exact @header_text_fun. Qed.
(** Whatever the order of additions: one header entry in the history, nothing
    read before.  Partial: other entries with an empty id must not come first. *)
Theorem C13_any_order_partial : forall (A : Type) (fmt : bytes -> list A -> bytes) es1 h es2 k,
  e_ctxt h = [] -> e_id h = [] -> (forall e, In e es1 -> e_id e <> []) ->
  fst (get_header k (run fmt (map OAdd (es1 ++ h :: es2)))) = header_value (e_str h) k.
Proof. exact @run_any_order. Qed.
(** The full claim is false: a header entry added after the first use of the
    headers is ignored. *)
Theorem C13_later_header_refuted : exists (os : list (fop nat)) h k,
  last_def os [] [] h /\ fst (get_header k (run ex_fmt os)) <> header_value (e_str h) k.
Proof.
  exists [OLang; OAdd ex_header], ex_header, (B "Language"). split.
  - exists [OLang], (OAdd ex_header), []. split; [reflexivity|]. split; [repeat split|intros ? ? []].
  - vm_compute. discriminate.
Qed.
Example C13_case : fst (get_header (B "Language") (run ex_fmt ex_ops)) = Some (B "xx") /\ header_text ex_ops (e_str ex_header).
Proof. split; [vm_compute; reflexivity|exact ex_text]. Qed.
Print Assumptions C13_headers.
Print Assumptions C13_header_entry.
Print Assumptions C13_header_text_unique.
Print Assumptions C13_any_order_partial.
Print Assumptions C13_later_header_refuted.
