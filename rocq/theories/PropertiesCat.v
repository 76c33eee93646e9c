(** C101: catalogs copied by value; nil catalogs and entries. *)
From Coq Require Import List ZArith Ascii Lia.
From Verif Require Import GoStr GoStrFacts GoMap FileModel FileSpec FormsFacts PoModel PoSpec MoModel EntryModel CatModel CatSpec CatFacts CatRunFacts.
Import ListNotations.
Local Open Scope nat_scope.

Section Programs.
Context {A : Type}.
Variable fmt : bytes -> list A -> bytes.
Implicit Types (os r : list (cop A)) (o : cop A).

(** after any program, a text is looked up among the entries the catalog lists *)
Theorem C101_lookup os f c i args : cproper os -> f < cats os ->
  f_x fmt (cview (crun fmt os) f) c i args
  = match listed os f (joined c i) with
    | Some e => if is_empty (e_str e) then fmt i args else fmt (e_str e) args
    | None => fmt i args
    end.
Proof. intros P F. destruct (inv_run fmt os P) as (_ & _ & L & _). unfold f_x. rewrite L by exact F. reflexivity. Qed.
(** and a header field is the one that was kept when it was first needed *)
Theorem C101_header os f k : cproper os -> f < cats os -> fst (get_header k (cview (crun fmt os) f)) = field os f k.
Proof.
  intros P F. destruct (inv_run fmt os P) as (_ & _ & L & R). rewrite (rel_fields _ _ k (R f F)).
  unfold field, or_text, text_in, head_text. rewrite L by exact F. destruct (kept os f); reflexivity.
Qed.
(** nothing else counts: catalogs of any two programs that list the same entries and have the
    same header fields cannot be told apart *)
Theorem C101_same os os' f g : cproper os -> cproper os' -> f < cats os -> g < cats os' ->
  (forall k, listed os f k = listed os' g k) -> (forall k, field os f k = field os' g k) ->
  same_catalog fmt (cview (crun fmt os) f) (cview (crun fmt os') g).
Proof.
  intros P P' F G E H. pose proof (inv_run fmt os P) as (TO & Ti & L & R). pose proof (inv_run fmt os' P') as (TO' & Ti' & L' & R').
  eapply alike; eauto using run_filed.
  - intros k. rewrite L, L' by assumption. apply E.
  - intros k. rewrite !C101_header by assumption. apply H.
Qed.
(** catalogs that share their entries list the same ones *)
Theorem C101_shared os f g k : cproper os -> f < cats os -> g < cats os -> shares os f g = true -> listed os f k = listed os g k.
Proof.
  intros P F G S. destruct (inv_run fmt os P) as (TO & _ & L & _). rewrite <- !L by assumption. apply (shares_map _ _ _ _ TO F G) in S as (m & E & E').
  unfold cview. cbn [f_entries]. rewrite E, E'. reflexivity.
Qed.
(** as long as neither of the two is assigned, they share their entries for ever, or never *)
Theorem C101_sharing r o f g : cproper (o :: r) -> f < cats r -> g < cats r -> f <> g ->
  (forall h, o <> CAssign (Some f) (Some h)) -> (forall h, o <> CAssign (Some g) (Some h)) -> shares (o :: r) f g = shares r f g.
Proof. intros P F G N Nf Ng. apply sharing_kept; auto; intros (h & E); [exact (Nf h E)|exact (Ng h E)]. Qed.
(** a call that does not concern a catalog leaves all of it alone *)
Theorem C101_apart r o f : cproper (o :: r) -> f < cats r -> concerns r o f = false -> cview (crun fmt (o :: r)) f = cview (crun fmt r) f.
Proof. apply apart_view. Qed.
(** a copy cannot be told from the original; it shares the entries if there is a table by then *)
Theorem C101_copy r h : cproper r -> h < cats r ->
  let os := CCopy (Some h) :: r in
  same_catalog fmt (cview (crun fmt os) (cats r)) (cview (crun fmt os) h) /\ cview (crun fmt os) h = cview (crun fmt r) h
  /\ (shares os (cats r) h = true <-> table r h <> None).
Proof.
  intros P H os. assert (PP : cproper os) by (split; assumption). assert (E : (h =? cats r) = false) by (apply Nat.eqb_neq; lia). split; [|split].
  - apply C101_same; auto; unfold os; try (cbn [cats makes]; lia); intros k; unfold field, head_text; cbn [listed kept]; rewrite Nat.eqb_refl, E; try reflexivity.
    cbn [needs]. destruct (kept r h); reflexivity.
  - apply apart_view; auto.
  - unfold shares, os. cbn [table]. rewrite Nat.eqb_refl, E. destruct (table r h); [rewrite Nat.eqb_refl|]; split; congruence.
Qed.
Theorem C101_assign r g h : cproper r -> g < cats r -> h < cats r ->
  let os := CAssign (Some g) (Some h) :: r in
  same_catalog fmt (cview (crun fmt os) g) (cview (crun fmt os) h)
  /\ same_catalog fmt (cview (crun fmt os) h) (cview (crun fmt r) h) /\ (shares os g h = true <-> table r h <> None).
Proof.
  intros P G H os. assert (PP : cproper os) by (repeat split; assumption). assert (C : cats os = cats r) by (unfold os; cbn; lia).
  assert (Lg : forall k, listed os g k = listed r h k) by (intros k; unfold os; cbn [listed]; rewrite Nat.eqb_refl; reflexivity).
  assert (Lh : forall k, listed os h k = listed r h k) by (intros k; unfold os; cbn [listed]; destruct (h =? g); reflexivity).
  assert (Fg : forall k, field os g k = field r h k) by (intros k; unfold field, head_text; rewrite Lg; unfold os; cbn [kept]; rewrite Nat.eqb_refl; reflexivity).
  assert (Fh : forall k, field os h k = field r h k).
  { intros k. unfold field, head_text. rewrite Lh. unfold os. cbn [kept needs]. destruct (h =? g); [reflexivity|]. destruct (kept r h); reflexivity. }
  split; [|split].
  - apply C101_same; auto; try lia; intros k; congruence.
  - apply C101_same; auto; try lia; intros k; congruence.
  - unfold shares, os. cbn [table]. rewrite Nat.eqb_refl. destruct (h =? g); destruct (table r h); try rewrite Nat.eqb_refl; split; congruence.
Qed.
(** a catalog without a table lists nothing *)
Theorem C101_empty os f k : cproper os -> f < cats os -> table os f = None -> listed os f k = None.
Proof.
  intros P F T. destruct (inv_run fmt os P) as ((_ & ids & _ & _ & _ & Q) & _ & L & _). rewrite <- L by exact F. specialize (Q f F). unfold cview. cbn [f_entries].
  destruct (c_map (the_cat (crun fmt os) f)); [|reflexivity]. destruct Q as (t & _ & E). congruence.
Qed.
(** asking a catalog changes nothing of what any catalog answers *)
Theorem C101_asked r o f : cproper (o :: r) -> asks o -> f < cats r -> same_catalog fmt (cview (crun fmt (o :: r)) f) (cview (crun fmt r) f).
Proof.
  intros PP K F. pose proof PP as [P U]. assert (C : cats (o :: r) = cats r) by (destruct o; try destruct K; cbn; lia).
  assert (Li : forall k, listed (o :: r) f k = listed r f k) by (intros k; destruct o; try destruct K; reflexivity).
  apply C101_same; auto; try lia. intros k. unfold field, head_text. rewrite Li.
  assert (Q : kept (o :: r) f = match kept r f with Some v => Some v | None => if needs r o f then Some (header_value (head_text (o :: r) f)) else None end) by (destruct o; try destruct K; reflexivity).
  rewrite Q. destruct (kept r f); [reflexivity|]. destruct (needs r o f); [|reflexivity]. unfold head_text. rewrite Li. reflexivity.
Qed.
(** a call panics because of a nil pointer exactly if it is given a nil catalog or entry *)
Theorem C101_panics r o : fst (cstep fmt (crun fmt r) o) = true <-> nil_used o.
Proof. apply panics_nil. Qed.
(** and a recovered panic changes no catalog and makes none *)
Theorem C101_recovered r o f : cproper (o :: r) -> nil_used o -> f < cats r ->
  cview (crun fmt (o :: r)) f = cview (crun fmt r) f /\ length (cs_files (crun fmt (o :: r))) = length (cs_files (crun fmt r)).
Proof.
  intros PP N F. split; [apply apart_view; auto using nil_concerns|]. pose proof PP as [P U].
  destruct (inv_run fmt _ PP) as ((L & _) & _), (inv_run fmt _ P) as ((L' & _) & _). rewrite L, L'. cbn [cats]. rewrite (nil_makes _ N). lia.
Qed.
(** in a program without copies every catalog is the one that its own calls make *)
Theorem C101_alone os f : cproper os -> plain os -> f < cats os ->
  cview (crun fmt os) f = fold_left (step fmt) (snd (acts os f)) (fst (acts os f)).
Proof. intros P Pl F. apply plain_view; assumption. Qed.
End Programs.
Print Assumptions C101_lookup.
Print Assumptions C101_header.
Print Assumptions C101_same.
Print Assumptions C101_shared.
Print Assumptions C101_sharing.
Print Assumptions C101_apart.
Print Assumptions C101_copy.
Print Assumptions C101_assign.
Print Assumptions C101_empty.
Print Assumptions C101_asked.
Print Assumptions C101_panics.
Print Assumptions C101_recovered.
Print Assumptions C101_alone.

(** "A copy of a catalog is independent of the original" is false: an entry that is added to
    the copy is found through the original, unless nothing was added before the copy. *)
Definition word (i s : string) : entry := {| e_cmts := []; e_ctxt := []; e_id := B i; e_plural := false; e_id2 := []; e_str := B s; e_strn := [] |}.
Definition head (s : bytes) : entry := {| e_cmts := []; e_ctxt := []; e_id := []; e_plural := false; e_id2 := []; e_str := s; e_strn := [] |}.
Theorem C101_depends : exists (r : list (cop unit)) h e, cproper r /\ h < cats r /\
  let os := CCopy (Some h) :: r in
  f_x (A:=unit) (fun s _ => s) (cview (crun (fun s _ => s) (CAdd (Some (cats r)) (Some e) :: os)) h) [] (e_id e) []
  <> f_x (A:=unit) (fun s _ => s) (cview (crun (fun s _ => s) os) h) [] (e_id e) [].
Proof. exists [CAdd (Some 0) (Some (word "a" "b")); CNew], 0, (word "c" "d"). split; [cbn; lia|]. split; [cbn; lia|]. vm_compute. discriminate. Qed.
Print Assumptions C101_depends.

(** Example: catalog 0 is copied before its first entry (catalog 1) and after it (catalog 2); a
    header is added to 0, which 2 shares, and the language is asked of 2 only afterwards *)
Local Definition L (s : string) : bytes := B "Language: " ++ B s ++ [ascii_of_nat 10].
Local Definition base : list (cop unit) :=
  [CLang (Some 2); CAdd (Some 0) (Some (head (L "de"))); CCopy (Some 0); CAdd (Some 0) (Some (word "a" "b")); CCopy (Some 0); CNew].
Example C101_base : cproper base /\ cats base = 3 /\ shares base 0 2 = true /\ shares base 0 1 = false /\ table base 1 = None
  /\ listed base 2 (joined [] (B "a")) = Some (word "a" "b") /\ field base 2 H_language = Some (B "de") /\ field base 1 H_language = None.
Proof. vm_compute. repeat split; lia. Qed.
(** a header added later is not read any more by 0 and 2, and is by 1 *)
Example C101_later : let os := CAdd (Some 1) (Some (head (L "fr"))) :: CAdd (Some 2) (Some (head (L "fr"))) :: base in
  cproper os /\ field os 0 H_language = Some (B "de") /\ field os 2 H_language = Some (B "de") /\ field os 1 H_language = Some (B "fr")
  /\ listed os 0 (joined [] []) = Some (head (L "fr")) /\ shares os 1 2 = false.
Proof. vm_compute. repeat split; lia. Qed.
(** copies that share their entries can have different header fields: 3 is a copy of 0 without
    them, 0 keeps the first ones, 3 reads the later ones *)
Example C101_fields : let os : list (cop unit) :=
  [CAdd (Some 0) (Some (head (L "fr"))); CLang (Some 0); CCopy (Some 0); CAdd (Some 0) (Some (word "a" "b")); CNew] in
  cproper os /\ shares os 0 1 = true /\ field os 0 H_language = None /\ field os 1 H_language = Some (B "fr").
Proof. vm_compute. repeat split; lia. Qed.
Example C101_calls : concerns base (CAdd (Some 2) (Some (word "c" "d"))) 1 = false /\ concerns base (CAdd (Some 2) (Some (word "c" "d"))) 0 = true
  /\ concerns base (CAssign (Some 1) (Some 0)) 0 = false /\ asks (CLang (A:=unit) (Some 1)).
Proof. vm_compute. repeat split. Qed.
Example C101_nil : nil_used (CAdd (A:=unit) (Some 1) None) /\ ~ nil_used (CAdd (A:=unit) (Some 1) (Some (word "a" "b")))
  /\ cproper (CAdd (Some 1) None :: base) /\ fst (cstep (fun s (_ : list unit) => s) (crun (fun s _ => s) base) (CAdd (Some 1) None)) = true.
Proof.
  split; [right; left; eauto|]. split; [intros [H|[(x & H)|[(x & H)|(x & H)]]]; discriminate H|]. split; [|reflexivity].
  split; [apply C101_base|]. cbn. lia.
Qed.
Example C101_two : let os : list (cop unit) := [CLang (Some 1); CAdd (Some 0) (Some (word "c" "d")); CAdd (Some 1) (Some (word "a" "b")); CNew; CNew] in
  cproper os /\ plain os /\ acts os 1 = (new_file, [OAdd (word "a" "b"); OLang]) /\ acts os 0 = (new_file, [OAdd (word "c" "d")]).
Proof.
  split; [cbn; lia|]. split; [|split; reflexivity].
  intros o I. repeat destruct I as [<- |I]; [..|destruct I]; (split; [discriminate|]); (split; [discriminate|]); intros [H|[(x & H)|[(x & H)|(x & H)]]]; discriminate H.
Qed.
