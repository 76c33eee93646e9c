(** C48-C54, C58: xtemplate. *)
From Coq Require Import Lia Permutation Sorted.
From Verif Require Import GoStr GoStrFacts GoMap FileModel PoModel PoSpec PoCatalogFacts BlankSpec BlankFacts XtModel XtSpec XtKeyFacts XtFacts XtMergeFacts XtRunFacts XtPanicFacts.
Local Open Scope Z_scope.

(** C48: exactly the texts of the described form are accepted, with the described result. *)
Theorem C48_keywords s ks : parse_keywords s = Some ks <-> spells s ks.
Proof. exact (parse_keywords_iff s ks). Qed.
Print Assumptions C48_keywords.
Example C48_example : parse_keywords (B " T ; N:1,2;X: 1c, 2;XN64:1c,2 ,3") =
  Some [kw (B "T") 0 1 0; kw (B "N") 0 1 2; kw (B "X") 1 2 0; kw (B "XN64") 1 2 3].
Proof. vm_compute. reflexivity. Qed.
Example C48_example_bad : parse_keywords (B "T:1;;N:1,2") = None /\ parse_keywords (B "T:1,2c") = None /\ parse_keywords (B "T:1:2") = None.
Proof. vm_compute. auto. Qed.

(** C49.  Full statement: for every message [message_all file kws t k e] of a template the result
    has an entry with its key, its plurality and its reference, or the message was reported as a
    conflict.  It fails for keywords whose positions have a gap and for calls in parentheses a field
    is taken of; for all others it holds. *)
Theorem C49_extracted_partial file kws t o k e : message file kws t o k e -> gapless k ->
  let c := resolve_node file t (new_ctx kws) in
  In e (c_rejected c) \/
  exists m, mget (e_key e) (c_entries c) = Some m /\ e_plural m = e_plural e /\ incl (e_cmts e) (e_cmts m).
Proof.
  intros M G c. destruct (emits_node kws file t) as (l & L1 & _ & L3).
  pose proof (add_merges kws (map snd l)) as Mg. rewrite <- (L1 (new_ctx kws) eq_refl) in Mg. fold c in Mg.
  assert (I : In e (map snd l)).
  { apply in_map_iff. exists (o, e). split; [reflexivity|]. apply L3. exists k. auto. }
  destruct (first_dec (map snd l) (e_key e)) as [(e0 & F)|F]; [|exfalso; exact (F e I eq_refl)].
  destruct (Bool.bool_dec (e_plural e0) (e_plural e)) as [P|P].
  - right. exists (with_cmts e0 (concat (map e_cmts (alike e0 (map snd l))))). split; [apply (m_entries _ _ Mg); exists e0; auto|].
    split; [exact P|]. cbn [with_cmts e_cmts]. intros x Hx. apply in_concat. exists (e_cmts e). split; [|exact Hx].
    apply in_map, filter_In. split; [exact I|]. apply first_in in F as [_ ->]. rewrite beq_refl, P, Bool.eqb_reflx. reflexivity.
  - left. pose proof (m_rejected _ _ Mg) as R.
    assert (C : conflicts (map snd l) e) by (exists e0; auto).
    revert R I C. generalize (conflicts (map snd l)) as Q. generalize (map snd l) as es. generalize (c_rejected c) as rs. clear.
    intros rs es Q R. induction R as [|x es rs Qx R IH|x es rs Qx R IH]; intros I C.
    + destruct I.
    + destruct I as [->|I]; [left; reflexivity|right; auto].
    + destruct I as [->|I]; [contradiction|auto].
Qed.
Print Assumptions C49_extracted_partial.
(** the messages are added in the order of their places, each once *)
Theorem C49_order_partial file kws t : exists l : list (list nat * entry),
  (forall c, c_kws c = kws -> resolve_node file t c = fold_left ctx_add (map snd l) c)
  /\ StronglySorted before (map fst l)
  /\ forall o e, In (o, e) l <-> exists k, message file kws t o k e /\ gapless k.
Proof. exact (emits_node kws file t). Qed.
Print Assumptions C49_order_partial.
Definition sample : tnode :=
  TList [TOther;
         TIf 2 [[AIdent (B "T"); AStr (B "yes?")]]
           (TList [TAction 3 [[AStr (B "piped")]; [AField [B "x"; B "T"]]]])
           (Some (TList [TRange 5 [[AVar [B "$"; B "XN"]; AStr (B "ctx"); APipe [[AStr (B "%d one")]]; AStr (B "%d many"); APipe [[AIdent (B "T"); AStr (B "in")]]]] (TList []) None]))].
Definition sample_kws : list keyword := [kw (B "T") 0 1 0; kw (B "XN") 1 2 3].
Example C49_example : map (fun x => (fst x, e_cmts (snd x))) (c_entries (resolve_node (B "a.html") sample (new_ctx sample_kws))) =
  [(key [] (B "yes?"), [B "#: a.html:2"]); (key [] (B "piped"), [B "#: a.html:3"]);
   (key (B "ctx") (B "%d one"), [B "#: a.html:5"; B "#, go-format"]); (key [] (B "in"), [B "#: a.html:5"])].
Proof. vm_compute. reflexivity. Qed.
Lemma gapless_small k : k_ctxt k = 0 /\ k_id k = 1 /\ k_id2 k = 0 \/ k_ctxt k = 1 /\ k_id k = 2 /\ k_id2 k = 3 \/
  k_ctxt k = 0 /\ k_id k = 1 /\ k_id2 k = 2 \/ k_ctxt k = 1 /\ k_id k = 2 /\ k_id2 k = 0 -> gapless k.
Proof. unfold gapless, declared. intros H p q. lia. Qed.
(** the hypotheses are met: a piped literal, as the third call *)
Example C49_example_message : exists o e, message (B "a.html") sample_kws sample o (kw (B "T") 0 1 0) e /\ gapless (kw (B "T") 0 1 0)
  /\ e_id e = B "piped" /\ o = [1; 1; 0; 0; 1; 0; 0]%nat.
Proof.
  exists [1; 1; 0; 0; 1; 0; 0]%nat.
  exists {| e_cmts := [B "#: a.html:3"]; e_ctxt := []; e_id := B "piped"; e_plural := false; e_id2 := []; e_str := []; e_strn := [] |}.
  split; [|split; [apply gapless_small; left; auto|split; reflexivity]].
  exists [1; 1; 0; 0]%nat, [1; 0]%nat, 0%nat, 3, [[AStr (B "piped")]; [AField [B "x"; B "T"]]], [AField [B "x"; B "T"]; AStr (B "piped")], 0%nat.
  split; [reflexivity|]. split.
  { eapply IN_list; [reflexivity|]. apply IN_if_body. eapply IN_list; [reflexivity|]. apply IN_action. }
  split.
  { apply IP_here; [|cbn; lia]. apply (A_piped _ 1 0 [AField [B "x"; B "T"]] (AStr (B "piped")) (B "piped")); try reflexivity. apply L_str. }
  split; [reflexivity|]. split.
  { exists (AField [B "x"; B "T"]). split; [reflexivity|]. exact (N_field [B "x"] (B "T")). }
  constructor; try reflexivity.
  - split; [cbn; lia|]. exists (AStr (B "piped")). split; [reflexivity|apply L_str].
  - right. cbn. split; [intuition discriminate|]. split; [auto|reflexivity].
  - split; reflexivity.
Qed.
(** a keyword whose positions leave out the first argument finds nothing at all *)
Theorem C49_gap_refuted : exists file kws t k e, spells (B "T:2") kws /\ message_all file kws t k e
  /\ c_entries (resolve_node file t (new_ctx kws)) = [] /\ c_rejected (resolve_node file t (new_ctx kws)) = [].
Proof.
  exists (B "a"), [kw (B "T") 0 2 0], (TAction 1 [[AIdent (B "T"); AStr (B "x"); AStr (B "hello")]]), (kw (B "T") 0 2 0),
    {| e_cmts := [B "#: a:1"]; e_ctxt := []; e_id := B "hello"; e_plural := false; e_id2 := []; e_str := []; e_strn := [] |}.
  split; [apply C48_keywords; vm_compute; reflexivity|]. split; [|vm_compute; auto].
  exists [0%nat], 1. do 2 eexists. exists 0%nat. split; [apply IN_action|]. split; [apply (IPA_here _ 0)|split; [left; reflexivity|]].
  - apply A_plain; [discriminate|reflexivity].
  - cbn; lia.
  - split; [eexists; split; [reflexivity|apply N_ident]|]. constructor; try reflexivity.
    + split; [cbn; lia|]. eexists; split; [reflexivity|apply L_str].
    + right. cbn. split; [intuition discriminate|]. split; [auto|reflexivity].
    + split; reflexivity.
Qed.
Print Assumptions C49_gap_refuted.
(** in general *)
Theorem C49_gap_silent file kws t e l : (forall k, In k kws -> ~ gapless k) -> resolve_node file t (new_ctx kws) = l -> c_entries l = [] /\ ~ In e (c_rejected l).
Proof.
  intros H <-. destruct (emits_node kws file t) as (l & L1 & _ & L3). rewrite (L1 (new_ctx kws) eq_refl).
  destruct l as [|[o x] l]; [split; [reflexivity|intros []]|]. exfalso.
  destruct (proj1 (L3 o x) (or_introl eq_refl)) as (k & (o1 & o2 & i & line & p & args & n & _ & _ & _ & K & _) & G).
  exact (H k (nth_error_In _ _ K) G).
Qed.
Print Assumptions C49_gap_silent.
Example C49_gap_example : ~ gapless (kw (B "T") 0 2 0) /\ ~ gapless (kw (B "N") 0 1 3).
Proof.
  split; intros G.
  - specialize (G 2 1). unfold declared in G. cbn in G. lia.
  - specialize (G 3 2). unfold declared in G. cbn in G. lia.
Qed.
(** a call in parentheses a field is taken of is overlooked *)
Theorem C49_chain_refuted : exists file kws t k e, gapless k /\ message_all file kws t k e
  /\ c_entries (resolve_node file t (new_ctx kws)) = [] /\ c_rejected (resolve_node file t (new_ctx kws)) = [].
Proof.
  exists (B "a"), [kw (B "T") 0 1 0], (TAction 1 [[AChain (APipe [[AIdent (B "T"); AStr (B "hello")]]) [B "Len"]]]), (kw (B "T") 0 1 0),
    {| e_cmts := [B "#: a:1"]; e_ctxt := []; e_id := B "hello"; e_plural := false; e_id2 := []; e_str := []; e_strn := [] |}.
  split; [apply gapless_small; left; auto|]. split; [|vm_compute; auto].
  exists [0%nat], 1. do 2 eexists. exists 0%nat. split; [apply IN_action|].
  split; [eapply IPA_chain; [left; reflexivity|left; reflexivity|apply (IPA_here _ 0)]|split; [left; reflexivity|]].
  - apply A_plain; [discriminate|reflexivity].
  - cbn; lia.
  - split; [eexists; split; [reflexivity|apply N_ident]|]. constructor; try reflexivity.
    + split; [cbn; lia|]. eexists; split; [reflexivity|apply L_str].
    + right. cbn. split; [intuition discriminate|]. split; [auto|reflexivity].
    + split; reflexivity.
Qed.
Print Assumptions C49_chain_refuted.

(** C50: every entry stems from a call of a keyword, every reference in it too. *)
Theorem C50_only file kws t id m : mget id (c_entries (resolve_node file t (new_ctx kws))) = Some m ->
  (exists o k e, message file kws t o k e /\ e_key e = id /\ m = with_cmts e (e_cmts m))
  /\ forall x, In x (e_cmts m) -> exists o k e, message file kws t o k e /\ e_key e = id /\ e_plural e = e_plural m /\ In x (e_cmts e).
Proof.
  destruct (emits_node kws file t) as (l & L1 & _ & L3).
  pose proof (add_merges kws (map snd l)) as Mg. rewrite <- (L1 (new_ctx kws) eq_refl) in Mg.
  assert (H : forall e, In e (map snd l) -> exists o k, message file kws t o k e).
  { intros e I. apply in_map_iff in I as ([o x] & X & I). cbn [snd] in X. subst x. apply L3 in I as (k & M & _). eauto. }
  intros E. apply (m_entries _ _ Mg) in E as (e & F & ->). apply first_in in F as [I K]. split.
  - destruct (H e I) as (o & k & M). exists o, k, e. auto.
  - intros x Hx. cbn [with_cmts e_cmts] in Hx. apply in_concat in Hx as (cs & Ics & Hx). apply in_map_iff in Ics as (y & <- & Iy).
    apply filter_In in Iy as [Iy Y]. apply Bool.andb_true_iff in Y as [Y1 Y2]. apply beq_eq in Y1. apply Bool.eqb_prop in Y2.
    destruct (H y Iy) as (o & k & M). exists o, k, y. split; [exact M|]. split; [congruence|]. auto.
Qed.
Print Assumptions C50_only.
Theorem C50_rejected file kws t e : In e (c_rejected (resolve_node file t (new_ctx kws))) -> exists o k, message file kws t o k e.
Proof.
  destruct (emits_node kws file t) as (l & L1 & _ & L3).
  pose proof (m_rejected _ _ (add_merges kws (map snd l))) as R. rewrite <- (L1 (new_ctx kws) eq_refl) in R.
  intros I. assert (I' : In e (map snd l)).
  { revert R I. generalize (conflicts (map snd l)) as Q, (c_rejected (resolve_node file t (new_ctx kws))) as rs. generalize (map snd l) as es. clear.
    intros es Q rs R. induction R as [|x es rs Qx R IH|x es rs Qx R IH]; intros I; [destruct I| |right; auto].
    destruct I as [->|I]; [left; reflexivity|right; auto]. }
  apply in_map_iff in I' as ([o x] & X & I'). cbn [snd] in X. subst x. apply L3 in I' as (k & M & _). eauto.
Qed.
Print Assumptions C50_rejected.
Example C50_example : mget (key [] (B "piped")) (c_entries (resolve_node (B "a.html") sample (new_ctx sample_kws))) <> None
  /\ c_rejected (resolve_node (B "a") (TAction 1 [[AIdent (B "T"); AStr (B "x")]; [AIdent (B "N"); AStr (B "x"); AStr (B "y")]])
       (new_ctx [kw (B "T") 0 1 0; kw (B "N") 0 1 2])) <> [].
Proof. vm_compute. split; discriminate. Qed.

(** C51 *)
Theorem C51_merge kws l : let c := fold_left ctx_add l (new_ctx kws) in
  NoDup (keys (c_entries c))
  /\ (forall k m, mget k (c_entries c) = Some m <-> merged l k m)
  /\ picked (conflicts l) l (c_rejected c)
  /\ (c_has_plural c = true <-> exists k m, mget k (c_entries c) = Some m /\ e_plural m = true).
Proof. intros c. destruct (add_merges kws l) as [A Bb C D]. auto. Qed.
Print Assumptions C51_merge.
Definition occ (id : string) (plural : bool) (cmt : string) : entry :=
  {| e_cmts := [B cmt]; e_ctxt := []; e_id := B id; e_plural := plural; e_id2 := if plural then B "s" else []; e_str := []; e_strn := [] |}.
Example C51_example : let l := [occ "a" false "#: 1"; occ "b" true "#: 2"; occ "a" false "#: 3"; occ "a" true "#: 4"; occ "b" true "#: 5"] in
  let c := fold_left ctx_add l (new_ctx []) in
  c_rejected c = [occ "a" true "#: 4"] /\ map (fun x => e_cmts (snd x)) (c_entries c) = [[B "#: 1"; B "#: 3"]; [B "#: 2"; B "#: 5"]] /\ c_has_plural c = true.
Proof. vm_compute. auto. Qed.

Section Run.
Variable isp : N -> bool.
Variable globs : fs -> bytes -> option (list bytes).
Variable creatable : bytes -> bool.
Variable parses : list bytes -> bytes -> bytes -> bytes -> option (list tnode).
Variable letter number : N -> bool.
Notation runs := (runs isp globs creatable parses letter number).
(** C52 and C49 for whole runs: [l] lists the messages of all files in order.  The text produced
    is a template file with exactly the merged messages, and the header unless a message has
    neither context nor id.  File names with line breaks are excluded. *)
Theorem C52_run_partial now p w w' out : runs now p w ROk w' out ->
  exists kws files text, spells (p_keyword p) kws /\ globs (opened p w) (p_input p) = Some files
    /\ (forall n, In n files -> exists src, opened p w n = Some src
          /\ parses ((map k_name kws ++ function_names (p_function p)) ++ scan_func_names src) (p_left p) (p_right p) src
             = Some (trees parses p (map k_name kws ++ function_names (p_function p)) (opened p w) n))
    /\ produced p w' out text
    /\ exists l : list (list nat * entry), StronglySorted before (map fst l)
    /\ (forall o e, In (o, e) l <-> found parses p (map k_name kws ++ function_names (p_function p)) (opened p w) kws files o e)
    /\ (clean_names files -> exists f' hp, read_pot text = PoOk f' /\ (hp = true <-> exists k m, merged (map snd l) k m /\ e_plural m = true)
          /\ forall k m', mget k (f_entries f') = Some m' <->
             (exists m, merged (map snd l) k m /\ m' = template_of m)
             \/ (forall x, In x (map snd l) -> e_key x <> key [] []) /\ k = key [] [] /\ m' = template_of (header_entry now p hp)).
Proof. exact (runs_text isp globs creatable parses letter number now p w w' out). Qed.
(** C53: what is true of every run that does not succeed: nothing is printed, and only the output
    file may have changed: it may be empty. *)
Theorem C53_failed_partial now p w o w' out : runs now p w o w' out -> o <> ROk ->
  out = [] /\ (w' = w \/ is_file (p_output p) /\ creatable (p_output p) = true /\ w' = fs_set w (p_output p) []).
Proof. exact (runs_fail isp globs creatable parses letter number now p w o w' out). Qed.
(** a run with a bad keyword list or an output that cannot be opened changes nothing *)
Theorem C53_early_partial now p w o w' out : runs now p w o w' out ->
  (forall ks, ~ spells (p_keyword p) ks) \/ is_file (p_output p) /\ creatable (p_output p) = false -> o = RFail /\ w' = w /\ out = [].
Proof.
  intros R H. assert (X : forall kws w1, parse_keywords (p_keyword p) = Some kws ->
    (to_file p = true /\ creatable (p_output p) = true /\ w1 = fs_set w (p_output p) [] \/ to_file p = false /\ w1 = w) -> False).
  { intros kws w1 K O. destruct H as [H|[H1 H2]].
    - apply parse_keywords_iff in K. exact (H kws K).
    - apply to_file_iff in H1. destruct O as [(_ & O & _)|(O & _)]; congruence. }
  inversion R; subst; auto; exfalso; eauto.
Qed.
(** exactly: a failed run empties the output file if and only if the keyword
    list is one and the file can be opened; otherwise all files are as before *)
Theorem C53_exactly now p w o w' out : runs now p w o w' out -> o <> ROk -> out = []
  /\ ((exists ks, spells (p_keyword p) ks) /\ is_file (p_output p) /\ creatable (p_output p) = true -> w' = fs_set w (p_output p) [])
  /\ (~ ((exists ks, spells (p_keyword p) ks) /\ is_file (p_output p) /\ creatable (p_output p) = true) -> w' = w).
Proof.
  intros R N. split; [exact (proj1 (C53_failed_partial now p w o w' out R N))|].
  assert (X : forall kws w1, parse_keywords (p_keyword p) = Some kws ->
    (to_file p = true /\ creatable (p_output p) = true /\ w1 = fs_set w (p_output p) [] \/ to_file p = false /\ w1 = w) ->
    ((exists ks, spells (p_keyword p) ks) /\ is_file (p_output p) /\ creatable (p_output p) = true -> w1 = fs_set w (p_output p) [])
    /\ (~ ((exists ks, spells (p_keyword p) ks) /\ is_file (p_output p) /\ creatable (p_output p) = true) -> w1 = w)).
  { intros kws w1 K O. apply parse_keywords_iff in K. destruct O as [(T & C & ->)|(T & ->)]; (split; [|auto]).
    - auto.
    - intros H. exfalso. apply H. split; [exists kws; exact K|]. split; [apply to_file_iff, T|exact C].
    - intros (_ & H & _). apply to_file_iff in H. congruence. }
  inversion R as [K|kws K T C|kws w1 K O G|kws w1 files K O G F|kws w1 files c K O G F|kws w1 files c f out' K O G F M S]; subst; try congruence; try exact (X _ _ K O).
  - split; [|auto]. intros ((ks & H) & _). apply parse_keywords_iff in H. congruence.
  - split; [|auto]. intros (_ & _ & H). congruence.
Qed.
(** no run changes a file other than the output *)
Theorem C53_others now p w o w' out n : runs now p w o w' out -> n <> p_output p \/ ~ is_file (p_output p) -> w' n = w n.
Proof. exact (runs_others isp globs creatable parses letter number now p w o w' out n). Qed.
(** C58.  Full statement: [o <> RPanic].  It holds if all names given are identifiers. *)
Theorem C58_no_panic_partial now p w o w' out : runs now p w o w' out ->
  (forall kws k, spells (p_keyword p) kws -> In k kws -> go_identifier letter number (k_name k)) ->
  (forall n, lists_name (p_function p) n -> go_identifier letter number n) -> o <> RPanic.
Proof. exact (runs_no_panic isp globs creatable parses letter number now p w o w' out). Qed.
(** every run comes to an end *)
Theorem C58_total now p w : exists o w' out, runs now p w o w' out.
Proof. exact (runs_total isp globs creatable parses letter number now p w). Qed.
End Run.
Print Assumptions C52_run_partial.
Print Assumptions C53_failed_partial.
Print Assumptions C53_early_partial.
Print Assumptions C53_exactly.
Print Assumptions C53_others.
Print Assumptions C58_no_panic_partial.
Print Assumptions C58_total.
(** the file made of any set of messages *)
Theorem C52_pot_partial kws now p l f : makes_pot now p (fold_left ctx_add l (new_ctx kws)) f ->
  filed f /\ forall k m, mget k (f_entries f) = Some m <->
    merged l k m \/ (forall x, In x l -> ~ (e_ctxt x = [] /\ e_id x = [])) /\ k = key [] []
                     /\ m = header_entry now p (c_has_plural (fold_left ctx_add l (new_ctx kws))).
Proof.
  intros M. destruct (pot_entries now p l _ f (add_merges kws l) M) as [F E]. split; [exact F|].
  assert (X : (forall x, In x l -> e_key x <> key [] []) <-> forall x, In x l -> ~ (e_ctxt x = [] /\ e_id x = [])).
  { split; intros H x Hx; specialize (H x Hx); unfold e_key in *; rewrite key_nil in *; exact H. }
  intros k m. rewrite E, X. reflexivity.
Qed.
Print Assumptions C52_pot_partial.

(** Sample runs.  One file a with one template, given by [t]. *)
Definition a_globs : fs -> bytes -> option (list bytes) := fun _ pat => if beq pat (B "[") then None else Some [B "a"].
Definition a_parses (t : tnode) : list bytes -> bytes -> bytes -> bytes -> option (list tnode) :=
  fun _ _ _ src => if beq src (B "{{") then None else Some [t].
Definition a_param (kws : string) : param :=
  {| p_input := B "a"; p_left := B "{{"; p_right := B "}}"; p_keyword := B kws; p_function := []; p_output := B "out" |}.
Definition a_fs (src : string) : fs := fun n => if beq n (B "a") then Some (B src) else if beq n (B "out") then Some (B "old") else None.
Definition no_chars : N -> bool := fun _ => false.
Definition all_ok : bytes -> bool := fun _ => true.
Definition a_file (t : tnode) (p : param) : file :=
  let c := resolve_node (B "a") t (new_ctx [kw (B "T") 0 1 0]) in
  fold_left add_entry (vals (c_entries c)) (add_entry new_file (header_entry [] p (c_has_plural c))).
Lemma a_runs t out : saves_pot no_chars (a_file t (a_param "T")) out ->
  runs no_chars a_globs all_ok (a_parses t) no_chars no_chars [] (a_param "T") (a_fs "{{T}}") ROk
    (fs_set (fs_set (a_fs "{{T}}") (B "out") []) (B "out") out) [].
Proof.
  intros S. pose (p := a_param "T").
  apply (R_done no_chars a_globs all_ok (a_parses t) no_chars no_chars [] p (a_fs "{{T}}") [kw (B "T") 0 1 0]
    (fs_set (a_fs "{{T}}") (B "out") []) [B "a"] (resolve_node (B "a") t (new_ctx [kw (B "T") 0 1 0])) (a_file t p) out).
  - vm_compute. reflexivity.
  - left. auto.
  - reflexivity.
  - reflexivity.
  - eexists. split; [apply Permutation_refl|reflexivity].
  - exact S.
Qed.
(** a successful run with a message *)
Example C52_example : exists out, runs no_chars a_globs all_ok (a_parses (TAction 1 [[AIdent (B "T"); AStr (B "hello")]])) no_chars no_chars
  [] (a_param "T") (a_fs "{{T}}") ROk (fs_set (fs_set (a_fs "{{T}}") (B "out") []) (B "out") out) []
  /\ clean_names [B "a"] /\ mget (key [] (B "hello")) (f_entries (a_file (TAction 1 [[AIdent (B "T"); AStr (B "hello")]]) (a_param "T"))) <> None.
Proof.
  destruct (proj2 (saves_exist no_chars (a_file (TAction 1 [[AIdent (B "T"); AStr (B "hello")]]) (a_param "T")))) as (out & S).
  exists out. split; [apply a_runs, S|]. split; [intros n [<-|[]]; cbn; intuition discriminate|]. vm_compute. discriminate.
Qed.
(** the call T "" makes the header disappear *)
Theorem C52_header_refuted : exists isp globs creatable parses letter number now p w w' out text f,
  runs isp globs creatable parses letter number now p w ROk w' out /\ produced p w' out text
  /\ read_pot text = PoOk f /\ (exists m, mget (key [] []) (f_entries f) = Some m /\ e_str m = []) /\ length (f_entries f) = 1%nat.
Proof.
  pose (t := TAction 1 [[AIdent (B "T"); AStr []]]). pose (f := a_file t (a_param "T")).
  assert (Ff : filed f) by (apply fold_add_filed, built_filed; eexists [_]; reflexivity).
  assert (Ef : f_entries f = [(key [] [], {| e_cmts := [B "#: a:1"]; e_ctxt := []; e_id := []; e_plural := false; e_id2 := []; e_str := []; e_strn := [] |})])
    by (vm_compute; reflexivity).
  destruct (proj2 (saves_exist no_chars f)) as (out & S).
  assert (Ok : forall e, In e (vals (f_entries f)) -> pot_ok e).
  { intros e He. rewrite Ef in He. destruct He as [<-|[]]. split; [|right; reflexivity]. intros c [<-|[]].
    split; [eexists; reflexivity|]. cbn. split; intuition discriminate. }
  destruct (pot_round_trip no_chars f out Ff Ok ltac:(rewrite Ef; discriminate) S) as (f' & R & F' & H).
  exists no_chars, a_globs, all_ok, (a_parses t), no_chars, no_chars, [], (a_param "T"), (a_fs "{{T}}").
  do 2 eexists. exists out, f'. split; [apply a_runs, S|].
  split; [left; split; [split; discriminate|apply fs_set_same]|]. split; [exact R|]. split.
  - eexists. split; [apply H; rewrite Ef; eexists; split; reflexivity|reflexivity].
  - destruct F' as [N' _].
    assert (K : forall k e, In (k, e) (f_entries f') -> k = key [] []).
    { intros k e I. apply (GoMapFacts.in_mget _ _ _ N') in I. apply H in I as (x & X & _). rewrite Ef in X. cbn [mget] in X.
      destruct (beq_spec k (key [] [])) as [->|]; [reflexivity|discriminate]. }
    assert (Ne : mget (key [] []) (f_entries f') <> None).
    { intros Z. assert (X : exists m, mget (key [] []) (f_entries f') = Some m) by (eexists; apply H; rewrite Ef; eexists; split; reflexivity).
      destruct X as (m & X). congruence. }
    clear - N' K Ne. destruct (f_entries f') as [|[k1 e1] [|[k2 e2] r]]; [cbn in Ne; congruence|reflexivity|].
    exfalso. cbn [keys map fst] in N'. apply NoDup_cons_iff in N' as [N' _]. apply N'.
    rewrite (K k1 e1 (or_introl eq_refl)), (K k2 e2 (or_intror (or_introl eq_refl))). left; reflexivity.
Qed.
Print Assumptions C52_header_refuted.

(** C53: the full statement fails: a template that does not parse empties the output file *)
Theorem C53_destroyed_refuted : exists isp globs creatable parses letter number now p w w' out,
  runs isp globs creatable parses letter number now p w RFail w' out /\ is_file (p_output p)
  /\ w (p_output p) = Some (B "old") /\ w' (p_output p) = Some [].
Proof.
  exists no_chars, a_globs, all_ok, (a_parses TOther), no_chars, no_chars, [], (a_param "T"), (a_fs "{{"), (fs_set (a_fs "{{") (B "out") []), [].
  split.
  - eapply (R_file no_chars a_globs all_ok (a_parses TOther) no_chars no_chars [] (a_param "T") (a_fs "{{") [kw (B "T") 0 1 0] _ [B "a"]).
    + vm_compute. reflexivity.
    + left. auto.
    + reflexivity.
    + reflexivity.
  - split; [split; discriminate|]. split; reflexivity.
Qed.
Print Assumptions C53_destroyed_refuted.
Example C53_example : (exists o w' out, o <> ROk /\ runs no_chars a_globs all_ok (a_parses TOther) no_chars no_chars [] (a_param "T") (a_fs "{{") o w' out)
  /\ forall ks, ~ spells (p_keyword (a_param "T:x")) ks.
Proof.
  split.
  - do 3 eexists. split; [|eapply (R_file no_chars a_globs all_ok (a_parses TOther) no_chars no_chars [] (a_param "T") (a_fs "{{") [kw (B "T") 0 1 0] _ [B "a"])].
    + discriminate.
    + vm_compute. reflexivity.
    + left. auto.
    + reflexivity.
    + reflexivity.
  - intros ks H. apply C48_keywords in H. vm_compute in H. discriminate.
Qed.

(** C54.  Full statement: for every identifier of the template language that stands in the source
    and is not a keyword of templates.  True for ASCII identifiers. *)
Theorem C54_scan_partial src name : identifier name -> stands_in src name -> ~ template_word name -> In name (scan_func_names src).
Proof. intros I St N. apply scan_complete; [exact I|exact St|]. rewrite builtin_word. exact N. Qed.
Print Assumptions C54_scan_partial.
Theorem C54_only src name : In name (scan_func_names src) -> identifier name /\ ~ template_word name
  /\ exists a b, src = a ++ name ++ b /\ (forall d x, b = d :: x -> ~ wordchar d).
Proof. rewrite <- builtin_word. exact (scan_sound src name). Qed.
Print Assumptions C54_only.
(** exactly: the ASCII identifiers that stand in the source, up to digits before them *)
Theorem C54_exactly src name : In name (scan_func_names src) <-> identifier name /\ ~ template_word name /\ found_in src name.
Proof. exact (scan_exactly src name). Qed.
Print Assumptions C54_exactly.
Example C54_exactly_case : found_in (B "{{12abc}}") (B "abc") /\ scan_func_names (B "{{12abc}}") = [B "abc"]
  /\ ~ stands_in (B "{{12abc}}") (B "abc").
Proof.
  split; [|split; [vm_compute; reflexivity|]].
  - exists (B "{{"), (B "12"), (B "}}"). split; [reflexivity|]. split; [|split].
    + intros (x & c & E & W). change (B "{{") with (B "{" ++ ["{"%char]) in E. apply app_inj_tail in E as [_ <-].
      apply re_word_iff in W. discriminate.
    + intros c [<-|[<-|[]]]; vm_compute; split; discriminate.
    + intros c x E. unfold B in E; cbn [list_ascii_of_string] in E. assert (c = "}"%char) by congruence. subst c. rewrite <- re_word_iff. discriminate.
  - intros (a & b & E & Na & _).
    assert (L : length a = 4%nat).
    { do 9 (destruct a as [|? a]; [try discriminate E; cbn in E; try discriminate E; try reflexivity|cbn [app] in E; injection E as <- E; try discriminate E]).
      all: try (destruct a; discriminate). }
    do 4 (destruct a as [|? a]; [discriminate L|]). destruct a; [|discriminate L]. cbn [app] in E. injection E as <- <- <- <- _.
    apply (Na ["{"; "{"; "1"]%char "2"%char eq_refl). apply re_word_iff. reflexivity.
Qed.
Theorem C54_functions s n : In n (function_names s) <-> lists_name s n.
Proof. exact (function_names_iff s n). Qed.
Print Assumptions C54_functions.
Example C54_example : identifier (B "my_func2") /\ stands_in (B "<p>{{my_func2 .x | printf}}") (B "my_func2") /\ ~ template_word (B "my_func2")
  /\ scan_func_names (B "{{if my_func2 .x | printf}}{{end}}") = [B "my_func2"; B "x"; B "printf"]
  /\ function_names (B " a ,, b") = [B "a"; B "b"].
Proof.
  split; [|split; [|split; [|split]]].
  - eexists. eexists. split; [reflexivity|]. split; [left; vm_compute; left; split; discriminate|].
    intros x Hx. apply re_word_iff. revert x Hx. apply forallb_forall. vm_compute. reflexivity.
  - exists (B "<p>{{"), (B " .x | printf}}"). split; [reflexivity|]. split.
    + intros x c E. change (B "<p>{{") with (B "<p>{" ++ ["{"%char]) in E. apply app_inj_tail in E as [_ <-].
      rewrite <- re_word_iff. discriminate.
    + intros c x E. unfold B in E; cbn [list_ascii_of_string] in E. assert (c = " "%char) by congruence. subst c. rewrite <- re_word_iff. discriminate.
  - cbn. intuition discriminate.
  - vm_compute. reflexivity.
  - vm_compute. reflexivity.
Qed.
(** the identifier in the template with the one-letter function U+00E9 is not registered *)
Theorem C54_refuted letter number : letter 233%N = true -> exists src name, go_identifier letter number name /\ name = encode_rune 233
  /\ src = B "{{" ++ name ++ B " .}}" /\ ~ In name (scan_func_names src).
Proof.
  intros L. exists (B "{{" ++ encode_rune 233 ++ B " .}}"), (encode_rune 233). split; [|split; [reflexivity|split; [reflexivity|]]].
  - exists 233%N, []. split; [reflexivity|]. split; [intros x [<-|[]]; reflexivity|]. split; [|intros x []].
    right; right. split; [lia|exact L].
  - vm_compute. intuition discriminate.
Qed.
Print Assumptions C54_refuted.
Example C54_refuted_example : exists letter : N -> bool, letter 233%N = true.
Proof. exists (fun _ => true). reflexivity. Qed.

(** C58: a keyword whose name is not an identifier makes xtemplate panic *)
Theorem C58_panic_refuted : exists isp globs creatable parses letter number now p w w' out,
  (exists ks, spells (p_keyword p) ks) /\ runs isp globs creatable parses letter number now p w RPanic w' out.
Proof.
  exists no_chars, a_globs, all_ok, (a_parses TOther), no_chars, no_chars, [], (a_param ".T"), (a_fs "x"). do 2 eexists.
  split; [exists [kw (B ".T") 0 1 0]; apply C48_keywords; vm_compute; reflexivity|].
  eapply (R_panic no_chars a_globs all_ok (a_parses TOther) no_chars no_chars [] (a_param ".T") (a_fs "x") [kw (B ".T") 0 1 0] _ [B "a"]).
  - vm_compute. reflexivity.
  - left. auto.
  - reflexivity.
  - vm_compute. reflexivity.
Qed.
Print Assumptions C58_panic_refuted.
(** exactly: a run panics if some name given is not an identifier, as soon as
    there is a file to read.  [letter] and [number] are false of U+FFFD, which
    invalid UTF-8 is decoded to. *)
Theorem C58_exactly : forall isp globs creatable parses letter number, letter RuneError = false -> number RuneError = false ->
  forall now p w, (exists w' out, runs isp globs creatable parses letter number now p w RPanic w' out) <->
  exists kws files x n src, spells (p_keyword p) kws /\ (is_file (p_output p) -> creatable (p_output p) = true)
    /\ globs (opened p w) (p_input p) = Some files /\ In n files /\ opened p w n = Some src
    /\ ((exists k, In k kws /\ x = k_name k) \/ lists_name (p_function p) x) /\ ~ go_identifier letter number x.
Proof. intros isp globs creatable parses letter number L N now p w. apply runs_panic; assumption. Qed.
Print Assumptions C58_exactly.
(** and then every run does: how a run ends does not depend on the order of maps *)
Theorem C58_outcome : forall isp globs creatable parses letter number now p w o w' out o2 w2 out2,
  runs isp globs creatable parses letter number now p w o w' out ->
  runs isp globs creatable parses letter number now p w o2 w2 out2 -> o = o2.
Proof. exact runs_outcome. Qed.
Print Assumptions C58_outcome.
Example C58_example : go_identifier no_chars no_chars (B "T") /\ ~ go_identifier no_chars no_chars (B ".T")
  /\ forall n, ~ lists_name (p_function (a_param "T")) n.
Proof.
  split; [|split].
  - exists 84%N, []. split; [reflexivity|]. split; [intros x [<-|[]]; reflexivity|]. split; [left; right; lia|intros x []].
  - intros H. apply good_go in H. vm_compute in H. discriminate.
  - intros n H. apply C54_functions in H. exact H.
Qed.
