(** A goroutine whose parts of the handle nobody else changes gets the same answers
    whatever the others do. *)
From Coq Require Import Lia Arith List.
From Verif Require Import GoStr GoStrFacts GoMap GoMapFacts FileModel PoReadFacts TransModel TransSpec TransFacts TransQuietFacts ConcModel
  HandleConcModel HandleConcSpec HandleConcFacts HandleRaceSpec HandleRaceFacts.
Import ListNotations.
Local Open Scope nat_scope.
(** ** Maps with the same keys *)
Definition mrel {V V'} (R : V -> V' -> Prop) (m : gmap V) (m' : gmap V') : Prop := Forall2 (fun a b => fst a = fst b /\ R (snd a) (snd b)) m m'.
Section Mrel.
Context {V V' : Type}.
Variable R : V -> V' -> Prop.
Lemma mrel_keys m m' : mrel R m m' -> keys m = keys m'.
Proof. induction 1 as [|a b m m' [E _] _ IH]; [reflexivity|]. unfold keys in *. cbn [map]. rewrite E, IH. reflexivity. Qed.
Lemma mrel_get k m m' : mrel R m m' -> match mget k m, mget k m' with Some v, Some v' => R v v' | None, None => True | _, _ => False end.
Proof.
  induction 1 as [|[a x] [b y] m m' [E H] _ IH]; [exact I|]. cbn [fst snd] in *. subst b. cbn [mget]. destruct (beq k a); [exact H|exact IH].
Qed.
Lemma mrel_put k v v' m m' : R v v' -> mrel R m m' -> mrel R (mput k v m) (mput k v' m').
Proof.
  intros Hv. induction 1 as [|[a x] [b y] m m' [E H] F IH]; [constructor; [split; [reflexivity|exact Hv]|constructor]|]. cbn [fst snd] in *. subst b.
  cbn [mput]. destruct (beq k a); constructor; try assumption; split; try reflexivity; assumption.
Qed.
Lemma mrel_del k m m' : mrel R m m' -> mrel R (mdel k m) (mdel k m').
Proof.
  induction 1 as [|[a x] [b y] m m' [E H] F IH]; [constructor|]. cbn [fst snd] in *. subst b.
  cbn [mdel]. destruct (beq k a); [exact F|]. constructor; [split; [reflexivity|exact H]|exact IH].
Qed.
End Mrel.
Lemma mrel_mono {V V'} (R R' : V -> V' -> Prop) m m' : (forall v v', R v v' -> R' v v') -> mrel R m m' -> mrel R' m m'.
Proof. intros H. induction 1 as [|a b m m' [E Hr] _ IH]; constructor; auto. Qed.

(** the same keys, and related values under each *)
Definition orel {V V'} (R : V -> V' -> Prop) (m : gmap V) (m' : gmap V') : Prop :=
  keys m = keys m' /\ forall k, match mget k m, mget k m' with Some v, Some v' => R v v' | None, None => True | _, _ => False end.
Lemma orel_mono {V V'} (R R' : V -> V' -> Prop) m m' : (forall v v', R v v' -> R' v v') -> orel R m m' -> orel R' m m'.
Proof. intros H [E G]. split; [exact E|]. intros k. specialize (G k). destruct (mget k m), (mget k m'); auto. Qed.
Lemma keys_put_same {V V'} k (v : V) (v' : V') m m' : keys m = keys m' -> keys (mput k v m) = keys (mput k v' m').
Proof.
  revert m'. induction m as [|[a x] m IH]; intros [|[b y] m'] E; try discriminate; [reflexivity|]. injection E as -> E. cbn [mput].
  destruct (beq k b); unfold keys in *; cbn [map]; [f_equal; exact E|]. f_equal. apply IH, E.
Qed.
Lemma orel_put {V V'} (R : V -> V' -> Prop) k v v' m m' : R v v' -> orel R m m' -> orel R (mput k v m) (mput k v' m').
Proof. intros Hv [E G]. split; [apply keys_put_same, E|]. intros k'. rewrite !mget_put. destruct (beq k' k); [exact Hv|apply G]. Qed.
Lemma orel_nil {V V'} (R : V -> V' -> Prop) : orel R [] [].
Proof. split; [reflexivity|]. intros k. exact I. Qed.

Section Facts.
Context {A : Type}.
Variable fmt : bytes -> list A -> bytes.
Variable norm : bytes -> bytes.
Notation state := (@state A).
Implicit Types s : state.
Variable h : nat.
Variable g0 : nat.
(** ** What a handle shows, without addresses *)
Inductive ctor := CNoop | CFile (f : file) | CUser (u : @user A).
Definition content := gmap ctor.
Record view := { v_locale : bytes; v_domain : bytes; v_loaded : gmap content; v_source : bytes }.
(** what is known for ever: catalogs and translations are not changed *)
Record world := { w_file : nat -> file -> Prop; w_tr : nat -> content -> Prop }.
Implicit Types (W : world) (V : view) (C : nat -> Prop) (E O : list nat).
Definition wsub W W' : Prop := (forall a f, w_file W a f -> w_file W' a f) /\ (forall t c, w_tr W t c -> w_tr W' t c).
Lemma wsub_refl W : wsub W W.
Proof. split; auto. Qed.
Lemma wsub_trans W W' W2 : wsub W W' -> wsub W' W2 -> wsub W W2.
Proof. intros [H1 H2] [H3 H4]. split; auto. Qed.
Definition tor_is W (x : @tor A) (c : ctor) : Prop :=
  match x, c with
  | TNoop, CNoop => True
  | TFile a, CFile f => w_file W a f /\ ready f
  | TUser u, CUser u' => u = u'
  | _, _ => False
  end.
Definition langs_is W : gmap tor -> content -> Prop := orel (tor_is W).
Definition loaded_is W : gmap nat -> gmap content -> Prop := mrel (w_tr W).
Lemma tor_mono W W' x c : wsub W W' -> tor_is W x c -> tor_is W' x c.
Proof. intros [H _]. destruct x, c; cbn [tor_is]; auto. intros [H1 H2]. auto. Qed.
Lemma langs_mono W W' ls c : wsub W W' -> langs_is W ls c -> langs_is W' ls c.
Proof. intros H. apply orel_mono. intros x y. apply tor_mono, H. Qed.
Lemma loaded_mono W W' g c : wsub W W' -> loaded_is W g c -> loaded_is W' g c.
Proof. intros [_ H]. apply mrel_mono. auto. Qed.
Fixpoint abs_all (cs : list file) (m : content) : content :=
  match cs with
  | [] => m
  | f :: r => abs_all r (match fst (lang f) with [] => m | l => mput (norm l) (CFile (init_header f)) m end)
  end.
Definition with_l V l := {| v_locale := l; v_domain := v_domain V; v_loaded := v_loaded V; v_source := v_source V |}.
Definition with_d V d := {| v_locale := v_locale V; v_domain := d; v_loaded := v_loaded V; v_source := v_source V |}.
Definition with_m V m := {| v_locale := v_locale V; v_domain := v_domain V; v_loaded := m; v_source := v_source V |}.
Definition with_s V l := {| v_locale := v_locale V; v_domain := v_domain V; v_loaded := v_loaded V; v_source := l |}.

(** [p] gives [r]: it looks only at the parts [us] of [h], whose values are those
    of [V], and changes only the parts [cs]; [C]: the addresses known to be that of
    the map of [h]; [E]: new maps nobody else knows; [O]: handles it made, whose
    fields do not matter *)
Fixpoint yields {R} (us cs : part -> Prop) (r : R -> view -> Prop) (p : @gprog A R) : world -> view -> (nat -> Prop) -> list nat -> list nat -> Prop :=
  match p with
  | GRet x => fun _ V _ _ _ => r x V
  | Rd x k => fun W V C E O =>
      match x return (holds x -> @gprog A R) -> (holds x -> world -> view -> (nat -> Prop) -> list nat -> list nat -> Prop) -> Prop with
      | PGlobal => fun k y => y g0 W V C E O
      | PLocale a => fun k y => (a = h /\ us Language /\ y (v_locale V) W V C E O) \/ (In a O /\ forall v, y v W V C E O)
      | PDomain a => fun k y => (a = h /\ us Current /\ y (v_domain V) W V C E O) \/ (In a O /\ forall v, y v W V C E O)
      | PSource a => fun k y => (a = h /\ us Source /\ y (v_source V) W V C E O) \/ (In a O /\ forall v, y v W V C E O)
      | PDomains a => fun k y => (a = h /\ us Loaded /\ forall m, y m W V (fun x => x = m \/ C x) E O) \/ (In a O /\ forall v, y v W V C E O)
      | PMap m => fun k y => us Loaded /\ ((C m /\ forall W' g, wsub W W' -> loaded_is W' g (v_loaded V) -> y g W' V C E O) \/ (forall g, y g W V C E O))
      | PLangs t => fun k y => exists c, w_tr W t c /\ forall W' ls, wsub W W' -> langs_is W' ls c -> y ls W' V C E O
      | PEntries a => fun k y => exists f, w_file W a f /\ y (f_entries f) W V C E O
      | PHeaders a => fun k y => exists f, w_file W a f /\ y (f_headers f) W V C E O
      | PPlural a => fun k y => exists f, w_file W a f /\ y (f_plural f) W V C E O
      end k (fun v => yields us cs r (k v))
  | Wr x f k => fun W V C E O =>
      match x return (@holds A x -> @holds A x) -> Prop with
      | PLocale a => fun f => (a = h /\ cs Language /\ yields us cs r k W (with_l V (f (v_locale V))) C E O) \/ (In a O /\ yields us cs r k W V C E O)
      | PDomain a => fun f => (a = h /\ cs Current /\ yields us cs r k W (with_d V (f (v_domain V))) C E O) \/ (In a O /\ yields us cs r k W V C E O)
      | PSource a => fun f => (a = h /\ cs Source /\ yields us cs r k W (with_s V (f (v_source V))) C E O) \/ (In a O /\ yields us cs r k W V C E O)
      | PDomains a => fun f => a = h /\ cs Loaded /\ exists m, (forall m', f m' = m) /\ In m E /\ yields us cs r k W (with_m V []) (fun x => x = m) [] O
      | PMap m => fun f => C m /\ cs Loaded /\ exists f', (forall W' g, wsub W W' -> loaded_is W' g (v_loaded V) -> loaded_is W' (f g) f')
                           /\ yields us cs r k W (with_m V f') C E O
      | _ => fun _ => False
      end f
  | NewTs _ k => fun W V C E O => forall a, yields us cs r (k a) W V C E (a :: O)
  | NewMap g k => fun W V C E O => forall m, yields us cs r (k m) W V C (match g with [] => m :: E | _ => E end) O
  | Load _ wm wp k => fun W V C E O => forall W' t, wsub W W' -> w_tr W' t (abs_all (catalogs (B ".mo") wm ++ catalogs (B ".po") wp) []) ->
      yields us cs r (k (if existsb okb (hits (B ".mo") wm ++ hits (B ".po") wp) then Some t else None)) W' V C E O
  end.
Lemma yields_mono {R} us cs (r : R -> view -> Prop) p : forall W W' V C E O, wsub W W' -> yields us cs r p W V C E O -> yields us cs r p W' V C E O.
Proof.
  induction p as [x|x k IH|x f k IH|x k IH|g k IH|d wm wp k IH]; intros W W' V C E O S P; cbn [yields] in *; auto.
  - destruct x; cbn [yields] in *.
    + eapply IH; eassumption.
    + destruct P as [(P1 & P2 & P3)|[P1 P2]]; [left|right]; repeat split; eauto.
    + destruct P as [(P1 & P2 & P3)|[P1 P2]]; [left|right]; repeat split; eauto.
    + destruct P as [(P1 & P2 & P3)|[P1 P2]]; [left|right]; repeat split; eauto.
    + destruct P as [(P1 & P2 & P3)|[P1 P2]]; [left|right]; repeat split; eauto.
    + destruct P as [P1 [[P2 P3]|P3]]; split; try exact P1; [left; split; [exact P2|]|right; eauto].
      intros W2 g S2. apply P3. eapply wsub_trans; eassumption.
    + destruct P as (c & P1 & P2). exists c. split; [apply S, P1|]. intros W2 ls S2. apply P2. eapply wsub_trans; eassumption.
    + destruct P as (f & P1 & P2). exists f. split; [apply S, P1|]. eapply IH; eassumption.
    + destruct P as (f & P1 & P2). exists f. split; [apply S, P1|]. eapply IH; eassumption.
    + destruct P as (f & P1 & P2). exists f. split; [apply S, P1|]. eapply IH; eassumption.
  - destruct x; cbn [yields] in *; try contradiction.
    + destruct P as [(P1 & P2 & P3)|[P1 P2]]; [left|right]; repeat split; eauto.
    + destruct P as [(P1 & P2 & P3)|[P1 P2]]; [left|right]; repeat split; eauto.
    + destruct P as (P1 & P2 & m & P3 & P4 & P5). split; [exact P1|]. split; [exact P2|]. exists m. split; [exact P3|]. split; [exact P4|]. eapply IH; eassumption.
    + destruct P as [(P1 & P2 & P3)|[P1 P2]]; [left|right]; repeat split; eauto.
    + destruct P as (P1 & P2 & f' & P3 & P4). split; [exact P1|]. split; [exact P2|]. exists f'. split; [|eapply IH; eassumption]. intros W2 g S2. apply P3. eapply wsub_trans; eassumption.
  - intros a. eauto.
  - intros m. eauto.
  - intros W2 t S2. apply P. eapply wsub_trans; eassumption.
Qed.
(** ** Calls *)
Fixpoint runf {T} (f : file) (p : ConcModel.prog T) : option T :=
  match p with
  | Ret r => Some r
  | ReadHeaders k => runf f (k (f_headers f))
  | ReadPlural k => runf f (k (f_plural f))
  | _ => None
  end.
Lemma runf_ready f (o : @call A) : ready f -> match o with CX _ _ _ | CXN _ _ _ _ _ => True | _ => False end -> exists r, runf f (run_call fmt (f_entries f) o) = Some r.
Proof.
  intros [H1 H2] Ho. destruct o as [|n|c i args|c i i2 n args]; try contradiction; cbn [run_call runf]; [eauto|].
  destruct (mget (key c i) (f_entries f)) as [e|]; [|cbn [runf]; eauto]. destruct (is_empty (e_id2 e) && _)%bool; [cbn [runf]; eauto|].
  unfold get_plural_c, init_plural_c. cbn [runf]. destruct (f_plural f) as [p|] eqn:E; [|contradiction]. cbn [runf]. rewrite E.
  destruct (p_total p <=? 0)%Z; [cbn [runf]; eauto|]. cbv zeta. destruct (_ || _ || _)%bool; [cbn [runf]; eauto|].
  destruct (nth_error (e_strn e) _) as [t|]; [|cbn [runf]; eauto]. destruct (is_empty t); cbn [runf]; eauto.
Qed.
Section Calls.
Context {R : Type}.
Variable us cs : part -> Prop.
Variable r : R -> view -> Prop.
Notation yl := (@yields R us cs r).
Variable N : content.
Notation knows W := (w_tr W tr_noop N).
Notation prog := (@gprog A R).
(** the rest of the goroutine, for any addresses *)
Definition then_ V (p : prog) : Prop := forall W C E O, knows W -> yl p W V C E O.
Lemma knows_mono W W' : wsub W W' -> knows W -> knows W'.
Proof. intros [_ H]. apply H. Qed.
Lemma y_clone a k W V C E O : (a = h \/ In a O) -> (a = h -> forall p, us p) -> us Loaded ->
  (forall b W' C' E', wsub W W' -> yl (k b) W' V C' E' (b :: O)) -> yl (clone_c a k) W V C E O.
Proof.
  intros Ha Hu Ul Hk.
  assert (Last : forall lo d m W' C' E', wsub W W' -> yl (NewMap m (fun m' => Rd (PSource a) (fun so => NewTs {| t_locale := lo; t_domain := d; t_map := m'; t_source := so |} k))) W' V C' E' O).
  { intros lo d m W' C' E' S. cbn [yields]. intros m'. destruct Ha as [-> |Ha]; [left|right]; (split; [auto|]); [split; [auto|]|]; intros; apply Hk; exact S. }
  unfold clone_c. cbn [yields]. destruct Ha as [-> |Ha].
  - left. split; [reflexivity|]. split; [auto|]. left. split; [reflexivity|]. split; [auto|]. left. split; [reflexivity|]. split; [auto|]. intros m.
    split; [exact Ul|]. right. intros g. exact (Last (v_locale V) (v_domain V) g W _ E (wsub_refl W)).
  - right. split; [exact Ha|]. intros lo. right. split; [exact Ha|]. intros d. right. split; [exact Ha|]. intros m. split; [exact Ul|]. right. intros g. exact (Last lo d g W C E (wsub_refl W)).
Qed.
Definition v_get V d : content := match mget d (v_loaded V) with Some c => c | None => N end.
Lemma y_get dom k W V C E O : us Loaded -> knows W ->
  (forall o W' C', wsub W W' -> match o, mget dom (v_loaded V) with Some t, Some c => w_tr W' t c | None, None => True | _, _ => False end -> yl (k o) W' V C' E O) ->
  yl (get_c h dom k) W V C E O.
Proof.
  intros U Kn Hk. unfold get_c. cbn [yields]. left. split; [reflexivity|]. split; [exact U|]. intros m. split; [exact U|]. left.
  split; [left; reflexivity|]. intros W' g S L. apply Hk; [exact S|]. exact (mrel_get _ dom _ _ L).
Qed.
Lemma y_tor k W V C E O : us Loaded -> us Current -> us Language -> knows W ->
  (forall x W' C', wsub W W' -> tor_is W' x (match mget (v_locale V) (v_get V (v_domain V)) with Some c => c | None => CNoop end) -> yl (k x) W' V C' E O) ->
  yl (tor_c h k) W V C E O.
Proof.
  intros U1 U2 U3 Kn Hk. unfold tor_c. cbn [yields]. left. split; [reflexivity|]. split; [exact U2|].
  apply y_get; [exact U1|exact Kn|]. intros o W1 C1 S1 Ho. cbv zeta. cbn [yields]. left. split; [reflexivity|]. split; [exact U3|].
  exists (v_get V (v_domain V)). split.
  { unfold v_get. destruct o as [t|], (mget (v_domain V) (v_loaded V)) as [c|]; try contradiction; [exact Ho|apply (knows_mono _ _ S1 Kn)]. }
  intros W2 ls S2 Ls. apply Hk; [eapply wsub_trans; eassumption|]. pose proof (proj2 Ls (v_locale V)) as G.
  destruct (mget (v_locale V) ls) as [x|], (mget (v_locale V) (v_get V (v_domain V))) as [c|]; try contradiction; [exact G|exact I].
Qed.
Lemma y_lift {T} a f (p : ConcModel.prog T) x k W V C E O : w_file W a f -> runf f p = Some x -> (forall W' C', wsub W W' -> yl (k x) W' V C' E O) -> yl (lift a p k) W V C E O.
Proof.
  intros Wf Rn Hk. revert Rn. induction p as [y|g IH|hd g IH|g IH|pl g IH]; intros Rn; cbn [runf lift] in *; try discriminate.
  - injection Rn as ->. apply Hk, wsub_refl.
  - cbn [yields]. exists f. split; [exact Wf|]. apply IH, Rn.
  - cbn [yields]. exists f. split; [exact Wf|]. apply IH, Rn.
Qed.
Definition v_ask (o : @call A) (u : @user A -> bytes) (none : bytes) (c : ctor) : result :=
  match c with
  | CNoop => RText none
  | CFile f => match runf f (run_call fmt (f_entries f) o) with Some x => x | None => RPanics end
  | CUser u' => RText (u u')
  end.
Definition v_tor V : ctor := match mget (v_locale V) (v_get V (v_domain V)) with Some c => c | None => CNoop end.
Lemma y_file a o k W V C E O u none c : tor_is W (TFile a) c -> match o with CX _ _ _ | CXN _ _ _ _ _ => True | _ => False end ->
  (forall W' C', wsub W W' -> yl (k (v_ask o u none c)) W' V C' E O) -> yl (file_c fmt a o k) W V C E O.
Proof.
  intros T Ho Hk. destruct c as [|f|]; try contradiction. cbn [tor_is] in T. destruct T as [Wf Rf]. unfold file_c. cbn [yields]. exists f. split; [exact Wf|].
  destruct (runf_ready f o Rf Ho) as [x Ex]. apply (y_lift a f _ x); [exact Wf|exact Ex|]. cbn [v_ask] in Hk. rewrite Ex in Hk. exact Hk.
Qed.
Definition abs_one V (q : @rcall A) : ans * view :=
  match q with
  | QNew _ | QGlobal | QWith _ _ | QD _ _ | QL _ _ _ => (ANone, V)
  | QSetDomain _ d => (ANone, with_d V d)
  | QSetLocale _ l d => (ANone, with_l V (match l with [] => d | _ => norm l end))
  | QSetSource _ l => (ANone, with_s V (norm l))
  | QBind _ dom wm wp => (ANone, if existsb okb (hits (B ".mo") wm ++ hits (B ".po") wp)
                                 then with_m V (mput dom (abs_all (catalogs (B ".mo") wm ++ catalogs (B ".po") wp) []) (v_loaded V)) else V)
  | QRemove _ d =>
      match d with
      | [] => (ABool false, V)
      | _ => if negb (existsb (beq d) (keys (v_loaded V))) then (ABool false, V)
             else (ABool true, if beq (v_domain V) d then with_d (with_m V (mdel d (v_loaded V))) default_domain else with_m V (mdel d (v_loaded V)))
      end
  | QClear _ => (ANone, with_d (with_m V []) default_domain)
  | QHas _ d => (ABool (existsb (beq d) (keys (v_loaded V))), V)
  | QDomain _ => (AText (v_domain V), V)
  | QLocale _ => (AText (v_locale V), V)
  | QSource _ => (AText (v_source V), V)
  | QUsed _ => (AText (match mget (v_domain V) (v_loaded V) with
                       | None => v_source V
                       | Some c => match mget (v_locale V) c with None => v_source V | Some _ => v_locale V end
                       end), V)
  | QDomains _ => (ANames (keys (v_loaded V)), V)
  | QLocales _ | QUserLang None => (ALangs (v_source V) (keys (v_get V (v_domain V))), V)
  | QMost _ => (AMatched (v_source V) (keys (v_get V (v_domain V))) (v_locale V), V)
  | QUserLang (Some v) => (AText v, V)
  | QX _ c i args => (ans_of (v_ask (CX c i args) (fun u => u_x u c i args) (fmt i args) (v_tor V)), V)
  | QXN _ c i i2 n args => (ans_of (v_ask (CXN c i i2 n args) (fun u => u_xn u c i i2 n args) (default_plural fmt i i2 n args) (v_tor V)), V)
  end.
Lemma y_locales k W V C E O : us Loaded -> us Current -> us Source -> knows W ->
  (forall W' C', wsub W W' -> yl (k (v_source V) (keys (v_get V (v_domain V)))) W' V C' E O) -> yl (locales_c h k) W V C E O.
Proof.
  intros U1 U2 U3 Kn Hk. unfold locales_c. cbn [yields]. left. split; [reflexivity|]. split; [exact U2|].
  apply y_get; [exact U1|exact Kn|]. intros o W1 C1 S1 Ho. cbv zeta. cbn [yields]. left. split; [reflexivity|]. split; [exact U3|].
  exists (v_get V (v_domain V)). split.
  { unfold v_get. destruct o as [t|], (mget (v_domain V) (v_loaded V)) as [c|]; try contradiction; [exact Ho|apply (knows_mono _ _ S1 Kn)]. }
  intros W2 ls S2 Ls. rewrite (proj1 Ls). apply Hk. eapply wsub_trans; eassumption.
Qed.
Lemma y_ref own q k W V C E O s : g0 = s_global s -> match q with HGlob => s_global s = h | HShared a => a = h | HOwn _ => False end ->
  yl (k h) W V C E O -> yl (with_ref own q k) W V C E O.
Proof.
  intros G Hr Hk. destruct q as [|a|i]; cbn [with_ref]; [|subst a; exact Hk|contradiction]. cbn [yields]. rewrite G, Hr. exact Hk.
Qed.
Lemma y_call s own q k W V C E O : g0 = s_global s -> on s h q -> (forall p, uses q p -> us p) -> (forall p, changes q p -> cs p) -> knows W ->
  (forall own', then_ (snd (abs_one V q)) (k (fst (abs_one V q)) own')) -> yl (run_rcall fmt norm own q k) W V C E O.
Proof.
  intros G Ho Hu Hc Kn Hk.
  assert (Cl : forall a f W V C E O, (a = h -> forall p, us p) -> us Loaded -> a = h \/ In a O -> (forall b W' C' E', wsub W W' -> yl (f b) W' V C' E' (b :: O)) -> yl (clone_c a f) W V C E O)
    by (intros; apply y_clone; assumption).
  destruct q as [d| |c d|r' dom|r' l d|r' dom|r' l d|r' l|r' dom wm wp|r' dom|r'|r' dom|r'|r'|r'|r'|r'|r'|r'|ck|r' c i args|r' c i i2 n args]; cbn [on uses changes run_rcall] in *;
    try (apply (y_ref own r' _ W V C E O s G Ho)).
  - cbn [abs_one fst snd] in Hk. unfold new_c. cbn [yields]. intros m a. apply Hk, Kn.
  - cbn [abs_one fst snd] in Hk. unfold global_c. cbn [yields]. rewrite G, Ho. apply Cl; auto. intros b W' C' E' S. apply Hk. apply (knows_mono _ _ S Kn).
  - cbn [abs_one fst snd] in Hk. unfold with_context_c, global_c. cbn [yields]. rewrite G, Ho. apply Cl; auto. intros b W1 C1 E1 S1. cbv zeta.
    assert (Td : forall a W C E O, In a O -> knows W -> yl match get_ctx_domain c with Some dom => D_c a dom (fun b => k ANone (own ++ [b])) | None => k ANone (own ++ [a]) end W V C E O).
    { intros a W3 C3 E3 O3 Ia Kn3. destruct (get_ctx_domain c) as [dm|]; [|apply Hk, Kn3]. unfold D_c, set_domain_c. apply Cl; auto.
      intros b' W4 C4 E4 S4. cbn [yields]. right. split; [left; reflexivity|]. apply Hk. apply (knows_mono _ _ S4 Kn3). }
    destruct (get_ctx_locale c) as [lc|]; [|apply Td; [left; reflexivity|apply (knows_mono _ _ S1 Kn)]]. unfold L_c, set_locale_c. apply Cl; auto; [right; left; reflexivity|].
    intros b' W4 C4 E4 S4. cbn [yields]. right. split; [left; reflexivity|]. apply Td; [left; reflexivity|apply (knows_mono _ _ S4), (knows_mono _ _ S1 Kn)].
  - cbn [abs_one fst snd] in Hk. unfold D_c, set_domain_c. apply Cl; auto. intros b' W4 C4 E4 S4. cbn [yields]. right. split; [left; reflexivity|]. apply Hk. apply (knows_mono _ _ S4 Kn).
  - cbn [abs_one fst snd] in Hk. unfold L_c, set_locale_c. apply Cl; auto. intros b' W4 C4 E4 S4. cbn [yields]. right. split; [left; reflexivity|]. apply Hk. apply (knows_mono _ _ S4 Kn).
  - cbn [abs_one fst snd] in Hk. unfold set_domain_c. cbn [yields]. left. split; [reflexivity|]. split; [auto|]. apply Hk, Kn.
  - cbn [abs_one fst snd] in Hk. unfold set_locale_c. cbn [yields]. left. split; [reflexivity|]. split; [auto|]. apply Hk, Kn.
  - cbn [abs_one fst snd] in Hk. unfold set_source_c. cbn [yields]. left. split; [reflexivity|]. split; [auto|]. apply Hk, Kn.
  - cbn [abs_one fst snd] in Hk. unfold bind_c. cbn [yields]. intros W1 t S1 Wt. destruct (existsb okb _) eqn:Eo; [|apply Hk, (knows_mono _ _ S1 Kn)].
    apply some_loaded_iff in Eo. cbn [yields]. left. split; [reflexivity|]. split; [apply Hu; auto|]. intros m. split; [left; reflexivity|]. split; [apply Hc; auto|].
    eexists. split; [|apply Hk, (knows_mono _ _ S1 Kn)]. intros W2 g S2 L. apply mrel_put; [apply S2, Wt|exact L].
  - cbn [abs_one] in Hk. unfold remove_c. destruct dom as [|ch dom]; [cbn [fst snd] in Hk; apply Hk, Kn|].
    assert (U1 : us Loaded) by (apply Hu; split; [auto|discriminate]). assert (U2 : us Current) by (apply Hu; split; [auto|discriminate]).
    assert (C1 : cs Loaded) by (apply Hc; split; [auto|discriminate]). assert (C2 : cs Current) by (apply Hc; split; [auto|discriminate]).
    unfold has_c. cbn [yields]. left. split; [reflexivity|]. split; [exact U1|]. intros m. split; [exact U1|]. left. split; [left; reflexivity|].
    intros W1 g S1 L. rewrite (mrel_keys _ _ _ L). destruct (negb _); [cbn [fst snd] in Hk; apply Hk, (knows_mono _ _ S1 Kn)|]. cbn [fst snd] in Hk.
    cbn [yields]. left. split; [reflexivity|]. split; [exact U1|]. intros m'. split; [left; reflexivity|]. split; [exact C1|].
    exists (mdel (ch :: dom) (v_loaded V)). split; [intros W2 g' S2 L'; apply mrel_del, L'|]. left. split; [reflexivity|]. split; [exact U2|]. cbn [with_m v_domain].
    destruct (beq (v_domain V) (ch :: dom)); [|apply Hk, (knows_mono _ _ S1 Kn)]. cbn [yields]. left. split; [reflexivity|]. split; [exact C2|]. apply Hk, (knows_mono _ _ S1 Kn).
  - cbn [abs_one fst snd] in Hk. unfold clear_c. cbn [yields]. intros m. split; [reflexivity|]. split; [auto|]. exists m. split; [reflexivity|]. split; [left; reflexivity|].
    left. split; [reflexivity|]. split; [auto|]. apply Hk, Kn.
  - cbn [abs_one fst snd] in Hk. unfold has_c. cbn [yields]. left. split; [reflexivity|]. split; [auto|]. intros m. split; [auto|]. left. split; [left; reflexivity|].
    intros W1 g S1 L. rewrite (mrel_keys _ _ _ L). apply Hk, (knows_mono _ _ S1 Kn).
  - cbn [abs_one fst snd] in Hk. cbn [yields]. left. split; [reflexivity|]. split; [auto|]. apply Hk, Kn.
  - cbn [abs_one fst snd] in Hk. cbn [yields]. left. split; [reflexivity|]. split; [auto|]. apply Hk, Kn.
  - cbn [abs_one fst snd] in Hk. cbn [yields]. left. split; [reflexivity|]. split; [auto|]. apply Hk, Kn.
  - cbn [abs_one fst snd] in Hk. unfold used_c. cbn [yields]. left. split; [reflexivity|]. split; [auto|]. apply y_get; [auto|exact Kn|].
    intros o W1 C1 S1 Hg. destruct o as [t|], (mget (v_domain V) (v_loaded V)) as [c|]; try contradiction; cbn [yields].
    + left. split; [reflexivity|]. split; [auto|]. exists c. split; [exact Hg|]. intros W2 ls S2 Ls. pose proof (proj2 Ls (v_locale V)) as Q.
      destruct (mget (v_locale V) ls), (mget (v_locale V) c); try contradiction; cbn [yields]; left; (split; [reflexivity|]); (split; [auto|]);
        apply Hk, (knows_mono _ _ S2), (knows_mono _ _ S1 Kn).
    + left. split; [reflexivity|]. split; [auto|]. apply Hk, (knows_mono _ _ S1 Kn).
  - cbn [abs_one fst snd] in Hk. unfold domains_c. cbn [yields]. left. split; [reflexivity|]. split; [auto|]. intros m. split; [auto|]. left. split; [left; reflexivity|].
    intros W1 g S1 L. rewrite (mrel_keys _ _ _ L). apply Hk, (knows_mono _ _ S1 Kn).
  - cbn [abs_one fst snd] in Hk. apply y_locales; try (apply Hu; discriminate); [exact Kn|]. intros W1 C1 S1. apply Hk, (knows_mono _ _ S1 Kn).
  - cbn [abs_one fst snd] in Hk.
    assert (M : yl (Rd PGlobal (fun g => locales_c g (fun so ls => Rd PGlobal (fun g => Rd (PLocale g) (fun l => k (AMatched so ls l) own))))) W V C E O).
    { cbn [yields]. rewrite G, Ho. apply y_locales; auto. intros W1 C1 S1. cbn [yields]. left. split; [congruence|]. split; [auto|]. apply Hk, (knows_mono _ _ S1 Kn). }
    destruct r'; cbn [with_ref]; [|apply M|apply M]. change (yl (Rd PGlobal (fun g => locales_c g (fun so ls => Rd PGlobal (fun g => Rd (PLocale g) (fun l => k (AMatched so ls l) own))))) W V C E O). exact M.
  - cbn [abs_one fst snd] in Hk. destruct ck as [v|]; [apply Hk, Kn|]. cbn [yields]. rewrite G, Ho.
    apply y_locales; try (apply Hu; discriminate); [exact Kn|]. intros W1 C1 S1. apply Hk, (knows_mono _ _ S1 Kn).
  - cbn [abs_one fst snd] in Hk. unfold x_c. apply y_tor; try (apply Hu; discriminate); [exact Kn|]. intros x W1 C1 S1 T. fold (v_tor V) in T.
    destruct x as [|a|u]; [|eapply y_file; [exact T|exact I|]; intros W2 C2 S2; apply Hk, (knows_mono _ _ S2), (knows_mono _ _ S1 Kn)|];
      destruct (v_tor V) as [|f|u']; try contradiction; [|cbn [tor_is] in T; subst u']; apply Hk, (knows_mono _ _ S1 Kn).
  - cbn [abs_one fst snd] in Hk. unfold xn_c. apply y_tor; try (apply Hu; discriminate); [exact Kn|]. intros x W1 C1 S1 T. fold (v_tor V) in T.
    destruct x as [|a|u]; [|eapply y_file; [exact T|exact I|]; intros W2 C2 S2; apply Hk, (knows_mono _ _ S2), (knows_mono _ _ S1 Kn)|];
      destruct (v_tor V) as [|f|u']; try contradiction; [|cbn [tor_is] in T; subst u']; apply Hk, (knows_mono _ _ S1 Kn).
Qed.
End Calls.
(** the answers, and what the handle shows in the end *)
Fixpoint abs_run (N : content) V (acc : list ans) (qs : list (@rcall A)) : list ans * view :=
  match qs with
  | [] => (acc, V)
  | q :: qs => match fst (abs_one N V q) with
               | APanics => (acc ++ [APanics], snd (abs_one N V q))
               | a => abs_run N (snd (abs_one N V q)) (acc ++ [a]) qs
               end
  end.
Definition ends (x : list ans * view) (r : list ans) V : Prop := x = (r, V).
Lemma y_request (us cs : part -> Prop) N s : g0 = s_global s -> forall qs V own acc,
  Forall (fun q => on s h q /\ (forall p, uses q p -> us p) /\ (forall p, changes q p -> cs p)) qs ->
  then_ us cs (ends (abs_run N V acc qs)) N V (run_request fmt norm own acc qs).
Proof.
  intros G. induction qs as [|q qs IH]; intros V own acc F W C E O Kn; [reflexivity|]. inversion F as [|? ? (F1 & F2 & F3) Fq]; subst.
  cbn [run_request]. eapply (y_call us cs _ N); try eassumption. intros own'. cbn [abs_run]. destruct (fst (abs_one N V q)); try (apply IH, Fq).
  intros W' C' E' O' _. reflexivity.
Qed.
End Facts.
