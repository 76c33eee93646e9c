(** Properties of concurrent use: translations from several goroutines. *)
From Coq Require Import Lia Arith.
From Verif Require Import GoStr GoMap FileModel ConcModel ConcSpec ConcFacts PoModel PoReadFacts MoModel MoCatalogFacts
  TransModel TransFacts TransQuietFacts.
Local Open Scope nat_scope.

(** ** C70: goroutines translating through one catalog *)
Definition start {A} (fmt : bytes -> list A -> bytes) (f : file) (oss : list (list (@call A))) : config :=
  (shared_of f, map (run_calls fmt (f_entries f)) oss).
(** however the goroutines interleave, each one that has finished has got the
    answers its calls give when nothing else is going on *)
Theorem C70_answers : forall A (fmt : bytes -> list A -> bytes) f oss n s ps,
  steps_c n (start fmt f oss) (s, ps) ->
  length ps = length oss
  /\ forall i os rs, nth_error oss i = Some os -> nth_error ps i = Some (Ret rs) -> answers fmt f os rs.
Proof.
  intros A fmt f oss n s ps St. destruct (steps_inv fmt f oss n _ St) as (l & La & _ & _ & F & _). cbn [fst snd] in F.
  assert (Ll : length l = length oss) by (rewrite <- (map_length fst l), La; apply map_length).
  split; [rewrite <- (Forall2_length' F); exact Ll|].
  intros i os rs Ei Er. destruct (nth_error l i) as [x|] eqn:El.
  2: { apply nth_error_None in El. assert (i < length oss) by (apply nth_error_Some; congruence). lia. }
  assert (Ex : fst x = the_answers fmt f os).
  { assert (Q : nth_error (map fst l) i = Some (fst x)) by (apply map_nth_error; exact El).
    rewrite La in Q. rewrite (map_nth_error _ _ _ Ei) in Q. congruence. }
  pose proof (Forall2_nth F El Er) as O. apply done_answer in O. rewrite O, Ex. apply answers_the.
Qed.
Print Assumptions C70_answers.
(** no goroutine waits for another one, and all finish within six steps per call *)
Theorem C70_finishes : forall A (fmt : bytes -> list A -> bytes) f oss n s ps,
  steps_c n (start fmt f oss) (s, ps) ->
  n <= 6 * length (concat oss)
  /\ forall a p b, ps = a ++ p :: b -> ~ finished p -> exists s' p', steps_c (S n) (start fmt f oss) (s', a ++ p' :: b).
Proof.
  intros A fmt f oss n s ps St. split.
  - destruct (steps_inv fmt f oss n _ St) as (l & _ & Lb & _). rewrite total_concat in Lb. lia.
  - intros a p b -> N. assert (Q : exists s' p', step1 s p = Some (s', p')) by (destruct p; [exfalso; apply N; exact I|..]; eexists; eexists; reflexivity).
    destruct Q as (s' & p' & Q). exists s', p'. apply (SC_step n _ s a p b s' p' St Q).
Qed.
Print Assumptions C70_finishes.
(** catalogs read from a file that names its language are only read: no data race *)
Theorem C70_quiet : forall A (fmt : bytes -> list A -> bytes) content f oss n s ps,
  read_po content = PoOk f \/ read_mo content = MoOk f -> fst (lang f) <> [] ->
  steps_c n (start fmt f oss) (s, ps) -> ~ racy ps /\ s = shared_of f.
Proof.
  intros A fmt content f oss n s ps R L St.
  assert (Bu : built f) by (destruct R as [R|R]; [exact (read_built _ _ _ R)|exact (read_mo_built _ _ R)]).
  destruct (built_lang f Bu L) as [H1 H2]. apply (quiet_set fmt f oss n s ps H1 H2 St).
Qed.
Print Assumptions C70_quiet.
(** a catalog without a header entry is not safe in the sense of Go's memory
    model: two goroutines may be about to write the same field *)
Definition bare_po : bytes := B "msgid ""one""" ++ NL :: B "msgid_plural ""many""" ++ NL :: B "msgstr[0] ""eins""" ++ NL :: B "msgstr[1] ""viele""" ++ [NL].
Theorem C70_race_refuted : exists content f (os : list (list (@call nat))) n s ps,
  read_po content = PoOk f /\ steps_c n (start (fun s _ => s) f os) (s, ps) /\ racy ps.
Proof.
  exists bare_po. destruct (read_po bare_po) as [f| | |] eqn:E; [|vm_compute in E; discriminate..].
  exists f. vm_compute in E. injection E as <-.
  exists [[CXN [] (B "one") (B "many") 2 []]; [CXN [] (B "one") (B "many") 2 []]].
  match goal with |- context [start ?g ?f ?os] => pose (c := sched [0; 0; 1; 1] (start g f os)) end.
  assert (Q : match c with Some (_, [WriteHeaders _ _; WriteHeaders _ _]) => true | _ => false end = true) by (vm_compute; reflexivity).
  destruct c as [[s ps]|] eqn:Ec; [|discriminate]. exists 4, s, ps. split; [reflexivity|]. split; [apply (sched_steps [0; 0; 1; 1]); exact Ec|].
  destruct ps as [|p [|q [|]]]; try discriminate Q; [destruct p; discriminate Q| |destruct p, q; discriminate Q].
  exists [], p, [], q, []. split; [reflexivity|]. destruct p, q; try discriminate Q. left. left. split; exact I.
Qed.
Print Assumptions C70_race_refuted.
(** exactly which catalogs may be used from several goroutines: those whose
    headers have been needed before, and whose plural rule has been needed before or
    never is (no entry has a plural) *)
Definition has_plural (f : file) : Prop :=
  exists c i e, mget (key c i) (f_entries f) = Some e /\ (e_id2 e <> [] \/ e_strn e <> []).
Section Exactly.
Context {A : Type}.
Variable fmt : bytes -> list A -> bytes.
(** a goroutine that, the headers being [h], only reads them *)
Inductive reads_only {R} (h : gmap bytes) : prog R -> Prop :=
| RO_ret r : reads_only h (Ret r)
| RO_read k : reads_only h (k (Some h)) -> reads_only h (ReadHeaders k).
Lemma ro_bind {R T} h (p : prog R) (k : R -> prog T) : reads_only h p -> (forall r, reads_only h (k r)) -> reads_only h (bind p k).
Proof. intros Hp Hk. induction Hp as [r|k0 _ IH]; cbn [bind]; [apply Hk|constructor; exact IH]. Qed.
Lemma ro_call f h (o : @call A) : ~ has_plural f -> reads_only h (run_call fmt (f_entries f) o).
Proof.
  intros NP. assert (G : forall name k, (forall v, reads_only h (k v)) -> reads_only h (get_header_c (f_entries f) name k)).
  { intros name k Hk. unfold get_header_c, init_header_c. constructor. constructor. apply Hk. }
  destruct o as [|name|c i args|c i i2 n args]; cbn [run_call].
  - apply G. intros v. constructor.
  - apply G. intros v. constructor.
  - constructor.
  - destruct (mget (key c i) (f_entries f)) as [e|] eqn:E; [|constructor].
    assert (Q : is_empty (e_id2 e) && match e_strn e with [] => true | _ => false end = true).
    { destruct (e_id2 e) eqn:E2; [destruct (e_strn e) eqn:E3; [reflexivity|]|]; exfalso; apply NP; exists c, i, e; (split; [exact E|]);
        [right|left]; congruence. }
    rewrite Q. constructor.
Qed.
Lemma ro_calls f h os : ~ has_plural f -> reads_only h (run_calls fmt (f_entries f) os).
Proof.
  intros NP. induction os as [|o os IH]; cbn [run_calls]; [constructor|]. apply ro_bind; [apply ro_call, NP|]. intros r.
  destruct r; try (constructor; fail); apply ro_bind; try exact IH; intros; constructor.
Qed.
Lemma ro_steps f h oss n c : f_headers f = Some h -> ~ has_plural f -> steps_c n (start fmt f oss) c ->
  fst c = shared_of f /\ Forall (reads_only h) (snd c).
Proof.
  intros Hh NP St. remember (start fmt f oss) as c0 eqn:E0.
  induction St as [c0|n c0 s0 a p b s' p' St IH S1]; subst; cbn [fst snd].
  - split; [reflexivity|]. unfold start. cbn [snd]. apply Forall_forall. intros p Hp. apply in_map_iff in Hp as (os & <- & _). apply ro_calls, NP.
  - destruct (IH eq_refl) as [E F]. cbn [fst snd] in E, F. subst s0.
    apply Forall_app in F as [Fa Fb]. apply Forall_cons_iff in Fb as [Fp Fb']. destruct Fp as [r|k Hk]; cbn [step1] in S1; [discriminate|].
    assert (E : k (Some h) = p' /\ s' = shared_of f) by (cbn [shared_of sh_headers] in S1; rewrite Hh in S1; injection S1 as <- <-; split; [reflexivity|unfold shared_of; rewrite Hh; reflexivity]).
    destruct E as [<- ->]. split; [reflexivity|]. apply Forall_app. split; [exact Fa|]. constructor; assumption.
Qed.
End Exactly.
Theorem C70_exactly : forall A (fmt : bytes -> list A -> bytes) f,
  (forall oss n s ps, steps_c n (start fmt f oss) (s, ps) -> ~ racy ps)
  <-> f_headers f <> None /\ (f_plural f <> None \/ ~ has_plural f).
Proof.
  intros A fmt f. split.
  - intros H. assert (Hh : f_headers f <> None).
    { intros E. pose (c := start fmt f [[CLang]; [CLang]]).
      assert (Q : exists s w w', sched [0; 1] c = Some (s, [w; w']) /\ writes_headers w /\ writes_headers w').
      { unfold c, start. cbn [map run_calls run_call get_header_c init_header_c bind sched nth_error fst snd step1 shared_of sh_headers firstn skipn app].
        rewrite E. cbn [bind]. eexists _, _, _. split; [reflexivity|]. split; exact I. }
      destruct Q as (s & w & w' & Q & W & W'). apply sched_steps in Q. apply (H _ _ _ _ Q).
      exists [], w, [], w', []. split; [reflexivity|]. left. left. split; [exact W|]. destruct w'; try destruct W'. exact I. }
    split; [exact Hh|]. destruct (f_plural f) as [p|] eqn:Ep; [left; discriminate|right]. intros (c & i & e & Ee & Pe).
    destruct (f_headers f) as [h|] eqn:Eh; [clear Hh|congruence].
    assert (Q0 : is_empty (e_id2 e) && match e_strn e with [] => true | _ => false end = false).
    { destruct (e_id2 e) eqn:E2; [|reflexivity]. destruct (e_strn e) eqn:E3; [|reflexivity]. destruct Pe; congruence. }
    pose (cf := start fmt f [[CXN c i [] 0 []]; [CXN c i [] 0 []]]).
    assert (Q : exists s w w', sched [0; 0; 0; 1; 1; 1] cf = Some (s, [w; w']) /\ writes_plural w /\ writes_plural w').
    { unfold cf, start. cbn [map run_calls run_call]. rewrite Ee, Q0.
      clear - Ep Eh. destruct f as [es hs pl]. cbn [f_headers f_plural f_entries] in *. subst. eexists _, _, _.
      split; [cbn -[key mget parse_plural H_plural_forms]; reflexivity|]. split; exact I. }
    destruct Q as (s & w & w' & Q & W & W'). apply sched_steps in Q. apply (H _ _ _ _ Q).
    exists [], w, [], w', []. split; [reflexivity|]. left. right. split; [exact W|]. destruct w'; try destruct W'. exact I.
  - intros [Hh [Hp|NP]] oss n s ps St.
    + exact (proj1 (quiet_set fmt f oss n s ps Hh Hp St)).
    + destruct (f_headers f) as [h|] eqn:Eh; [|congruence]. destruct (ro_steps fmt f h oss n (s, ps) Eh NP St) as [_ F]. cbn [snd] in F.
      rewrite Forall_forall in F. intros (a & p & b & q & c & -> & R).
      assert (Rp : reads_only h p) by (apply F, in_or_app; right; left; reflexivity).
      assert (Rq : reads_only h q) by (apply F, in_or_app; right; right; apply in_or_app; right; left; reflexivity).
      unfold race in R. destruct Rp, Rq; cbn [writes_headers writes_plural] in R; tauto.
Qed.
Print Assumptions C70_exactly.
(** so one question in advance, about an entry with a plural or, if there is none,
    about the language, makes any catalog safe; the hypothesis holds of every catalog
    the package builds, which only sets the plural rule after the headers *)
Theorem C70_warmed : forall A (fmt : bytes -> list A -> bytes) f,
  (f_plural f <> None -> f_headers f <> None) ->
  (forall c i i2 n args e, mget (key c i) (f_entries f) = Some e -> e_id2 e <> [] \/ e_strn e <> [] ->
     forall oss m s ps, steps_c m (start fmt (snd (f_xn64 fmt f c i i2 n args)) oss) (s, ps) -> ~ racy ps)
  /\ (~ has_plural f -> forall oss m s ps, steps_c m (start fmt (snd (lang f)) oss) (s, ps) -> ~ racy ps).
Proof.
  intros A fmt f Hf. split.
  - intros c i i2 n args e Ee Pe. apply C70_exactly.
    assert (Q : snd (f_xn64 fmt f c i i2 n args) = init_plural f).
    { unfold f_xn64. rewrite Ee.
      replace (is_empty (e_id2 e) && match e_strn e with [] => true | _ => false end) with false.
      2:{ destruct (e_id2 e) eqn:E2; [|reflexivity]. destruct (e_strn e) eqn:E3; [|reflexivity]. destruct Pe; congruence. }
      cbv zeta. repeat match goal with |- snd (if ?b then _ else _) = _ => destruct b | |- snd (match ?b with _ => _ end) = _ => destruct b end; reflexivity. }
    rewrite Q. unfold init_plural. destruct (f_plural f) as [p|] eqn:Ep.
    + rewrite Ep. split; [apply Hf; discriminate|left; discriminate].
    + unfold get_header, init_header. destruct (f_headers f) eqn:Eh; cbn [f_headers f_plural]; rewrite ?Eh; split; try (left; discriminate); discriminate.
  - intros NP. apply C70_exactly. unfold lang, get_header, init_header.
    destruct (f_headers f) eqn:Eh; cbn [snd f_headers f_plural]; rewrite ?Eh; (split; [discriminate|right]); exact NP.
Qed.
Print Assumptions C70_warmed.
Definition de_header : entry := {| e_cmts := []; e_ctxt := []; e_id := []; e_plural := false; e_id2 := []; e_str := B "Language: de"; e_strn := [] |}.
Definition day_entry : entry := {| e_cmts := []; e_ctxt := []; e_id := B "day"; e_plural := true; e_id2 := B "days"; e_str := []; e_strn := [B "Tag"; B "Tage"] |}.
Example C70_exactly_case :
  let one := {| f_entries := [(key [] [], de_header)]; f_headers := None; f_plural := None |} in
  let two := {| f_entries := [(key [] [], de_header); (key [] (B "day"), day_entry)]; f_headers := None; f_plural := None |} in
  let asks f := forall oss n s ps, steps_c n (start (fun s (_ : list nat) => s) f oss) (s, ps) -> ~ racy ps in
  asks (snd (lang one)) /\ ~ asks (snd (lang two)) /\ asks (snd (f_xn64 (fun s (_ : list nat) => s) two [] (B "day") (B "days") 5 [])).
Proof.
  cbv zeta. split; [|split].
  - apply C70_warmed; [intros H; destruct (H eq_refl)|]. intros (c & i & e & H & P). cbn [f_entries mget] in H.
    destruct (beq _ _); [|discriminate]. injection H as <-. destruct P as [P|P]; apply P; reflexivity.
  - intros H. apply C70_exactly in H as [_ [H|H]]; [apply H; reflexivity|]. apply H.
    exists [], (B "day"), day_entry. split; [reflexivity|left; discriminate].
  - match goal with |- context [f_xn64 _ ?f _ _ _ _ _] => assert (Q : f_plural f <> None -> f_headers f <> None) by (intros H; destruct (H eq_refl));
      exact (proj1 (C70_warmed nat (fun s _ => s) f Q) [] (B "day") (B "days") 5%Z [] day_entry eq_refl ltac:(left; discriminate)) end.
Qed.
(** three goroutines with different calls, interleaved, on a catalog with nothing
    computed yet *)
Example C70_example : exists f n s (oss : list (list (@call nat))) r1 r2 r3,
  read_po bare_po = PoOk f /\ steps_c n (start (fun s _ => s) f oss) (s, [Ret r1; Ret r2; Ret r3])
  /\ oss = [[CXN [] (B "one") (B "many") 2 []; CX [] (B "one") []]; [CLang]; [CHeader (B "Language"); CXN [] (B "none") [] 2 []]]
  /\ r1 = [RText (B "many"); RText (B "one")] /\ r2 = [RText []] /\ r3 = [RHeader None; RText (B "none")].
Proof.
  destruct (read_po bare_po) as [f| | |] eqn:E; [|vm_compute in E; discriminate..]. exists f. vm_compute in E. injection E as <-.
  eexists (length [0; 2; 0; 1; 1; 2; 0; 1; 0; 2; 0; 0]), _, _, _, _, _. split; [reflexivity|].
  split; [|split; [reflexivity|]]; [apply sched_steps; vm_compute; reflexivity|]. repeat split; reflexivity.
Qed.
(** a catalog with a header *)
Example C70_quiet_example : exists f,
  read_po (B "msgid """"" ++ NL :: B "msgstr ""Language: de\nPlural-Forms: nplurals=2; plural=n != 1;\n""" ++ NL :: NL :: bare_po) = PoOk f
  /\ fst (lang f) = B "de" /\ exists s, steps_c 4 (start (fun s (_ : list nat) => s) f [[CXN [] (B "one") (B "many") 2 []]; [CXN [] (B "one") (B "many") 1 []]])
     (s, [Ret [RText (B "viele")]; Ret [RText (B "eins")]]).
Proof.
  eexists. split; [vm_compute; reflexivity|]. split; [vm_compute; reflexivity|]. eexists.
  apply (sched_steps [0; 1; 1; 0]). vm_compute. reflexivity.
Qed.

(** ** C71: translating through handles changes nothing *)
(** programs whose catalogs were made by ReadPo, ReadMo, new(File) and AddEntry *)
Inductive reach_built {A} (fmt : bytes -> list A -> bytes) (norm : bytes -> bytes) : @state A -> Prop :=
| RB_init d : reach_built fmt norm (init d)
| RB_step s o : reach_built fmt norm s -> known s o ->
    (forall f, o = ONewFile f -> exists es, f = fold_left add_entry es new_file) -> reach_built fmt norm (do_op fmt norm s o).
Lemma reach_built_calm A (fmt : bytes -> list A -> bytes) norm s : reach_built fmt norm s -> calm s.
Proof.
  induction 1 as [d|s o R IH K M]; [apply calm_init|]. apply calm_step; [exact IH|exact K|].
  destruct o; try exact I. exact (M f eq_refl).
Qed.
Theorem C71_readonly : forall A (fmt : bytes -> list A -> bytes) norm s, reach_built fmt norm s ->
  forall h c i i2 n args, do_op fmt norm s (OX h c i args) = s /\ do_op fmt norm s (OXN h c i i2 n args) = s.
Proof. intros A fmt norm s R h c i i2 n args. split; [reflexivity|]. apply calm_xn, (reach_built_calm _ _ _ _ R). Qed.
Print Assumptions C71_readonly.
(** the catalog behind a handle can be used by any number of goroutines: it is
    never written, and everybody gets the answers of the handle *)
Theorem C71_concurrent : forall A (fmt : bytes -> list A -> bytes) norm s h a oss n sh ps,
  reach_built fmt norm s -> the_tor s h = TFile a -> steps_c n (start fmt (the_file s a) oss) (sh, ps) ->
  ~ racy ps /\ sh = shared_of (the_file s a)
  /\ forall k os rs, nth_error oss k = Some os -> nth_error ps k = Some (Ret rs) ->
     answers fmt (the_file s a) os rs
     /\ forall j o r, nth_error os j = Some o -> nth_error rs j = Some r ->
        (forall c i args, o = CX c i args -> r = RText (h_x fmt s h c i args))
        /\ (forall c i i2 m args, o = CXN c i i2 m args ->
            r = match fst (h_xn64 fmt s h c i i2 m args) with XStr t => RText t | XPanic => RPanics end).
Proof.
  intros A fmt norm s h a oss n sh ps R E St. pose proof (reach_built_calm _ _ _ _ R) as C.
  destruct (calm_tor s h a C E) as [H1 H2]. destruct (quiet_set fmt _ oss n sh ps H1 H2 St) as [Q1 Q2].
  split; [exact Q1|]. split; [exact Q2|]. intros k os rs Ek Er.
  pose proof (proj2 (C70_answers _ _ _ _ _ _ _ St) k os rs Ek Er) as An. split; [exact An|].
  intros j o r Eo Ej. assert (Q : r = alone fmt (the_file s a) o).
  { clear - An Eo Ej. revert j Eo Ej. induction An as [|o1 os P|o1 os rs P An IH]; intros j Eo Ej.
    - destruct j; discriminate.
    - destruct j as [|j]; cbn [nth_error] in *; [congruence|destruct j; discriminate].
    - destruct j as [|j]; cbn [nth_error] in *; [congruence|exact (IH j Eo Ej)]. }
  subst r. split.
  - intros c i args ->. cbn [alone]. unfold h_x, tor_x. rewrite E. reflexivity.
  - intros c i i2 m args ->. cbn [alone]. unfold h_xn64, tor_xn. rewrite E.
    destruct (f_xn64 fmt (the_file s a) c i i2 m args). reflexivity.
Qed.
Print Assumptions C71_concurrent.
Definition de_po : bytes :=
  B "msgid """"" ++ NL :: B "msgstr ""Language: de\nPlural-Forms: nplurals=2; plural=n != 1;\n""" ++ NL :: NL :: bare_po.
Definition de_walk : list event := [EEntry false (B "de.po") (Some {| ff_name := Some (B "de.po"); ff_content := Some de_po |})].
Definition de_state : @state nat :=
  fold_left (do_op (fun s _ => s) (fun l => l)) [OBind 0 (B "default") [] de_walk; OSetLocale 0 (B "de") (B "en")] (init (B "en")).
Example C71_example : reach_built (fun s _ => s) (fun l => l) de_state /\ the_tor de_state 0 = TFile 0
  /\ fst (h_xn64 (fun s _ => s) de_state 0 [] (B "one") (B "many") 5 []) = XStr (B "viele").
Proof.
  split; [|split; vm_compute; reflexivity]. unfold de_state. cbn [fold_left].
  apply RB_step; [apply RB_step; [constructor|cbn; lia|discriminate]|apply Nat.ltb_lt; vm_compute; reflexivity|discriminate].
Qed.
