(** Proofs about the language of xtemplate. *)
From Coq Require Import Lia List ZArith NArith Bool Ascii.
From Verif Require Import GoStr GoStrFacts GoQuote GoMap GoMapFacts FileModel PoModel MoModel MoFacts TransModel TransSpec TransFacts TransViewFacts TransLoadFacts
  PoSpec MoSpec FsModel FsSpec FsFacts GlobalModel PropertiesTrans PropertiesFs XtModel WriteModel MainModel XtErrModel XtErrSpec.
From Verif Require Import GoFmt XtErrFacts XtErrKeyFacts XtLangModel XtLangSpec.
Import ListNotations.

(** ** Verbs *)
Lemma cut_percent (t t' r r' : bytes) : ~ In "%"%char t -> ~ In "%"%char t' -> t ++ "%"%char :: r = t' ++ "%"%char :: r' -> t = t' /\ r = r'.
Proof.
  revert t'. induction t as [|c t IH]; intros [|c' t'] H H' E; cbn [app] in E.
  - injection E as <-. auto.
  - exfalso. apply H'. left. congruence.
  - exfalso. apply H. left. congruence.
  - injection E as <- E. destruct (IH t') as [-> ->]; [intros I; apply H; right; exact I|intros I; apply H'; right; exact I|exact E|auto].
Qed.
Lemma verb_unique (v v' f f' : bytes) : In v [B "v"; B "s"; B "+v"] -> In v' [B "v"; B "s"; B "+v"] -> v ++ f = v' ++ f' -> v = v' /\ f = f'.
Proof.
  intros I I' E. destruct I as [<-|[<-|[<-|[]]]], I' as [<-|[<-|[<-|[]]]]; cbn in E; try discriminate; injection E as <-; auto.
Qed.
Lemma reads_unique f ts : reads f ts -> forall ts', reads f ts' -> ts = ts'.
Proof.
  induction 1 as [t Ht|t v f ts Ht Hv R IH]; intros ts' R'.
  - inversion R' as [t' Ht' E|t' v f ts'' Ht' Hv R'' E]; subst; [reflexivity|]. exfalso. apply Ht. apply in_or_app. right. left. reflexivity.
  - inversion R' as [t' Ht' E|t' v' f' ts'' Ht' Hv' R'' E]; subst.
    + exfalso. apply Ht'. apply in_or_app. right. left. reflexivity.
    + apply (cut_percent t' t) in E; [|exact Ht'|exact Ht]. destruct E as [-> E]. symmetry in E.
      apply verb_unique in E; [|exact Hv|exact Hv']. destruct E as [-> ->]. rewrite (IH _ R''). reflexivity.
Qed.
Lemma verbs_unique f vs : verbs f vs -> forall vs', verbs f vs' -> vs = vs'.
Proof.
  induction 1 as [t Ht|t v f ts Ht Hv R IH]; intros ts' R'.
  - inversion R' as [t' Ht' E|t' v f ts'' Ht' Hv R'' E]; subst; [reflexivity|]. exfalso. apply Ht. apply in_or_app. right. left. reflexivity.
  - inversion R' as [t' Ht' E|t' v' f' ts'' Ht' Hv' R'' E]; subst.
    + exfalso. apply Ht'. apply in_or_app. right. left. reflexivity.
    + apply (cut_percent t' t) in E; [|exact Ht'|exact Ht]. destruct E as [-> E]. symmetry in E.
      apply verb_unique in E; [|exact Hv|exact Hv']. destruct E as [-> ->]. rewrite (IH _ R''). reflexivity.
Qed.
(** a way to find them *)
Fixpoint cut (acc s : bytes) : option (list bytes * list bytes) :=
  match s with
  | [] => Some ([rev acc], [])
  | c :: r =>
      if Ascii.eqb c "%" then
        match r with
        | d :: r' =>
            if Ascii.eqb d "v" then option_map (fun p => (rev acc :: fst p, B "v" :: snd p)) (cut [] r')
            else if Ascii.eqb d "s" then option_map (fun p => (rev acc :: fst p, B "s" :: snd p)) (cut [] r')
            else if Ascii.eqb d "+" then
              match r' with
              | e :: r2 => if Ascii.eqb e "v" then option_map (fun p => (rev acc :: fst p, B "+v" :: snd p)) (cut [] r2) else None
              | [] => None
              end
            else None
        | [] => None
        end
      else cut (c :: acc) r
  end.
Lemma cut_ok n : forall acc s ts vs, (length s < n)%nat -> ~ In "%"%char acc -> cut acc s = Some (ts, vs) ->
  reads (rev acc ++ s) ts /\ verbs (rev acc ++ s) vs.
Proof.
  induction n as [|n IH]; intros acc s ts vs L Ha E; [lia|].
  assert (Hr : ~ In "%"%char (rev acc)) by (rewrite <- in_rev; exact Ha).
  destruct s as [|c r]; cbn [cut] in E.
  - injection E as <- <-. rewrite app_nil_r. split; constructor; exact Hr.
  - destruct (Ascii.eqb_spec c "%") as [->|Nc].
    + destruct r as [|d r']; [discriminate|]. cbn [length] in L.
      destruct (Ascii.eqb_spec d "v") as [->|_]; [|destruct (Ascii.eqb_spec d "s") as [->|_]; [|destruct (Ascii.eqb_spec d "+") as [->|_]; [|discriminate]]].
      * destruct (cut [] r') as [[ts' vs']|] eqn:C; [|discriminate]. cbn in E. injection E as <- <-.
        destruct (IH [] r' ts' vs') as [R V]; [lia|intros []|exact C|]. cbn [rev app] in R, V. split.
        -- apply (RD_hole (rev acc) (B "v") r' ts' Hr); [left; reflexivity|exact R].
        -- apply (VB_hole (rev acc) (B "v") r' vs' Hr); [left; reflexivity|exact V].
      * destruct (cut [] r') as [[ts' vs']|] eqn:C; [|discriminate]. cbn in E. injection E as <- <-.
        destruct (IH [] r' ts' vs') as [R V]; [lia|intros []|exact C|]. cbn [rev app] in R, V. split.
        -- apply (RD_hole (rev acc) (B "s") r' ts' Hr); [right; left; reflexivity|exact R].
        -- apply (VB_hole (rev acc) (B "s") r' vs' Hr); [right; left; reflexivity|exact V].
      * destruct r' as [|e r2]; [discriminate|]. destruct (Ascii.eqb_spec e "v") as [->|_]; [|discriminate]. cbn [length] in L.
        destruct (cut [] r2) as [[ts' vs']|] eqn:C; [|discriminate]. cbn in E. injection E as <- <-.
        destruct (IH [] r2 ts' vs') as [R V]; [lia|intros []|exact C|]. cbn [rev app] in R, V. split.
        -- apply (RD_hole (rev acc) (B "+v") r2 ts' Hr); [right; right; left; reflexivity|exact R].
        -- apply (VB_hole (rev acc) (B "+v") r2 vs' Hr); [right; right; left; reflexivity|exact V].
    + cbn [length] in L. destruct (IH (c :: acc) r ts vs) as [R V]; [lia| |exact E|].
      * intros [I|I]; [congruence|exact (Ha I)].
      * cbn [rev] in R, V. rewrite <- app_assoc in R, V. auto.
Qed.
Lemma cut_spec s ts vs : cut [] s = Some (ts, vs) -> reads s ts /\ verbs s vs.
Proof. apply (cut_ok (S (length s)) [] s); [lia|intros []]. Qed.
Definition count (s : bytes) : option nat := option_map (fun p => length (fst p)) (cut [] s).
Lemma keeps_by tr m n : count m = Some n -> count (tr m) = Some n -> keeps tr m.
Proof.
  unfold count. destruct (cut [] m) as [[ts vs]|] eqn:C; [|discriminate]. destruct (cut [] (tr m)) as [[ts' vs']|] eqn:C'; [|discriminate].
  intros E E' us R. cbn in E, E'. exists ts'. split; [apply (proj1 (cut_spec _ _ _ C'))|].
  rewrite (reads_unique _ _ R _ (proj1 (cut_spec _ _ _ C))). congruence.
Qed.
Lemma fits_by tr m n n' : count m = Some n -> count (tr m) = Some n' -> (n' <= n)%nat -> fits tr m.
Proof.
  unfold count. destruct (cut [] m) as [[ts vs]|] eqn:C; [|discriminate]. destruct (cut [] (tr m)) as [[ts' vs']|] eqn:C'; [|discriminate].
  intros E E' L us R. cbn in E, E'. exists ts'. split; [apply (proj1 (cut_spec _ _ _ C'))|].
  rewrite (reads_unique _ _ R _ (proj1 (cut_spec _ _ _ C))). injection E as <-. injection E' as <-. exact L.
Qed.
Lemma same_by m t vs : option_map snd (cut [] m) = Some vs -> option_map snd (cut [] t) = Some vs -> same_verbs m t.
Proof.
  destruct (cut [] m) as [[ts us]|] eqn:C; [|discriminate]. destruct (cut [] t) as [[ts' us']|] eqn:C'; [|discriminate].
  cbn. intros [= ->] [= ->]. exists vs. split; [exact (proj2 (cut_spec _ _ _ C))|exact (proj2 (cut_spec _ _ _ C'))].
Qed.
Lemma not_same_by m t vs vs' : option_map snd (cut [] m) = Some vs -> option_map snd (cut [] t) = Some vs' -> vs <> vs' -> ~ same_verbs m t.
Proof.
  destruct (cut [] m) as [[ts us]|] eqn:C; [|discriminate]. destruct (cut [] t) as [[ts' us']|] eqn:C'; [|discriminate].
  cbn. intros [= ->] [= ->] N (ws & V & V').
  rewrite (verbs_unique _ _ V _ (proj2 (cut_spec _ _ _ C))) in V'. apply N. exact (verbs_unique _ _ V' _ (proj2 (cut_spec _ _ _ C'))).
Qed.

(** ** The language pack *)
Definition zh_file : file := match read_po zh_CN_po with PoOk f => f | _ => new_file end.
Lemma zh_as_po : as_po zh_CN_po = Some zh_file.
Proof. vm_compute. reflexivity. Qed.
Lemma zh_lang : fst (lang zh_file) = B "zh_CN".
Proof. vm_compute. reflexivity. Qed.
(** what the catalog says, as a function *)
Definition zh_text (m : bytes) : bytes := match mget m zh with Some t => t | None => m end.
Definition texts_of (f : file) : list (bytes * bytes) := map (fun p => (fst p, e_str (snd p))) (f_entries f).
Definition view (p : bytes * entry) : bytes * (bytes * bytes * bytes) := (fst p, (e_ctxt (snd p), e_id (snd p), e_str (snd p))).
Definition shown (z : list (bytes * bytes)) (h : bytes) : list (bytes * (bytes * bytes * bytes)) :=
  (key [] [], ([], [], h)) :: map (fun p => (key [] (fst p), ([], fst p, snd p))) z.
Lemma views_texts l z h : map view l = shown z h ->
  map (fun p : bytes * entry => (fst p, e_str (snd p))) l = (key [] [], h) :: map (fun p => (key [] (fst p), snd p)) z.
Proof.
  intros E. apply (f_equal (map (fun p : bytes * (bytes * bytes * bytes) => (fst p, snd (snd p))))) in E.
  rewrite map_map in E. unfold shown in E. cbn [map fst snd] in E. rewrite map_map in E. exact E.
Qed.
Lemma views_ids l z h : map view l = shown z h -> forall e, In e (map snd l) -> e_id e = [] \/ e_ctxt e = [] /\ In (e_id e, e_str e) z.
Proof.
  intros E e I. apply in_map_iff in I as (p & <- & I). pose proof (in_map view _ _ I) as V. rewrite E in V. destruct V as [V|V].
  - left. apply (f_equal (fun x => snd (fst (snd x)))) in V. symmetry. exact V.
  - right. apply in_map_iff in V as ([m t] & V & J). cbn [fst snd] in V. unfold view in V. injection V as _ C Ei Es. rewrite <- C, <- Ei, <- Es. auto.
Qed.
Lemma views_ships l z h : map view l = shown z h -> forall m t, In (m, t) z -> exists e, In e (map snd l) /\ e_ctxt e = [] /\ e_id e = m /\ e_str e = t.
Proof.
  intros E m t I. pose proof (in_map (fun p => (key [] (fst p), ([] : bytes, fst p, snd p))) _ _ I) as V.
  assert (V' : In (key [] m, ([], m, t)) (map view l)) by (rewrite E; right; exact V).
  apply in_map_iff in V' as (p & Q & J). exists (snd p). split; [apply in_map, J|]. unfold view in Q. injection Q as _ C Ei Es. auto.
Qed.
Lemma zh_views : exists h, map view (f_entries zh_file) = shown zh h.
Proof. eexists. vm_compute. reflexivity. Qed.
Lemma zh_entries : exists h, texts_of zh_file = (key [] [], h) :: map (fun p => (key [] (fst p), snd p)) zh.
Proof. destruct zh_views as [h E]. exists h. exact (views_texts _ _ _ E). Qed.
(** the messages of the pack, as the reader finds them *)
Lemma zh_ids e : In e (vals (f_entries zh_file)) -> e_id e = [] \/ e_ctxt e = [] /\ In (e_id e, e_str e) zh.
Proof. destruct zh_views as [h E]. exact (views_ids _ _ _ E e). Qed.
Lemma zh_ships m t : In (m, t) zh -> exists e, In e (vals (f_entries zh_file)) /\ e_ctxt e = [] /\ e_id e = m /\ e_str e = t.
Proof. destruct zh_views as [h E]. exact (views_ships _ _ _ E m t). Qed.
Lemma zh_named m t : In (m, t) zh -> m <> [].
Proof.
  assert (F : forallb (fun p => negb (is_empty (fst p))) zh = true) by (vm_compute; reflexivity).
  intros I E. rewrite forallb_forall in F. specialize (F _ I). cbn [fst] in F. rewrite E in F. discriminate F.
Qed.
Lemma mget_texts f k : mget k (texts_of f) = option_map e_str (mget k (f_entries f)).
Proof.
  unfold texts_of. induction (f_entries f) as [|[k' e] l IH]; [reflexivity|]. cbn [map mget fst snd]. destruct (beq k k'); [reflexivity|exact IH].
Qed.
Lemma mget_keyed l m : mget (key [] m) (map (fun p : bytes * bytes => (key [] (fst p), snd p)) l) = mget m l.
Proof.
  induction l as [|[k t] l IH]; [reflexivity|]. cbn [map mget fst snd]. rewrite IH.
  change (beq (key [] m) (key [] k)) with (beq m k). reflexivity.
Qed.
Lemma zh_full : forallb (fun p => negb (is_empty (snd p))) zh = true.
Proof. vm_compute. reflexivity. Qed.
Lemma zh_x {A} (fmt : bytes -> list A -> bytes) m args : m <> [] -> f_x fmt zh_file [] m args = fmt (zh_text m) args.
Proof.
  intros Nm. unfold f_x, zh_text. destruct zh_entries as [h E]. pose proof (mget_texts zh_file (key [] m)) as G. rewrite E in G. cbn [mget] in G.
  destruct (beq (key [] m) (key [] [])) eqn:B; [apply beq_eq in B; injection B; congruence|].
  rewrite mget_keyed in G. destruct (mget (key [] m) (f_entries zh_file)) as [e|]; cbn [option_map] in G; rewrite G.
  - pose proof zh_full as F. rewrite forallb_forall in F. apply mget_in in G. specialize (F _ G). cbn [snd] in F.
    destruct (is_empty (e_str e)); [discriminate F|reflexivity].
  - reflexivity.
Qed.
Lemma zh_nodup : NoDup (keys zh).
Proof.
  assert (H : forall l : list bytes, (fix nd l := match l with [] => true | x :: r => negb (existsb (beq x) r) && nd r end) l = true -> NoDup l).
  { induction l as [|x l IH]; intros H; constructor; apply andb_prop in H as [H1 H2]; [|apply IH, H2].
    intros I. apply negb_true_iff in H1. rewrite <- not_true_iff_false in H1. apply H1. apply existsb_exists. exists x. split; [exact I|apply beq_refl]. }
  apply H. vm_compute. reflexivity.
Qed.
Lemma zh_said m : said_by zh m (zh_text m).
Proof.
  unfold said_by, zh_text. destruct (mget m zh) as [t|] eqn:G.
  - left. apply mget_in, G.
  - right. split; [|reflexivity]. intros t I. apply mget_none in G. apply G. apply in_map_iff. exists (m, t). auto.
Qed.

(** ** The languages that can be spoken without a hypothesis about the translations *)
Lemma keeps_ext tr tr' m : tr m = tr' m -> keeps tr m -> keeps tr' m.
Proof. intros E K ts R. rewrite <- E. exact (K ts R). Qed.
Lemma fits_ext tr tr' m : tr m = tr' m -> fits tr m -> fits tr' m.
Proof. intros E K ts R. rewrite <- E. exact (K ts R). Qed.
Ltac each I tac := repeat (destruct I as [<-|I]; [tac|]); destruct I.
Lemma zh_sound : sound zh_text.
Proof.
  split; intros m I; cbn [frames details In] in I.
  - each I ltac:(eapply keeps_by; [vm_compute; reflexivity|vm_compute; reflexivity]).
  - each I ltac:(eapply fits_by; [vm_compute; reflexivity|vm_compute; reflexivity|lia]).
Qed.
Lemma frames_nonempty m : In m frames -> m <> [].
Proof. cbn [frames In]. intros I. each I discriminate. Qed.
Lemma details_nonempty m : In m details -> m <> [].
Proof. cbn [details In]. intros I. each I discriminate. Qed.
Lemma sound_ext tr tr' : (forall m, m <> [] -> tr' m = tr m) -> sound tr -> sound tr'.
Proof.
  intros E [F D]. split; intros m I.
  - eapply keeps_ext; [symmetry; apply E, frames_nonempty, I|apply F, I].
  - eapply fits_ext; [symmetry; apply E, details_nonempty, I|apply D, I].
Qed.
Lemma id_sound : sound (fun m => m).
Proof. exact sound_id. Qed.

(** ** Starting *)
Section Start.
Variable norm : bytes -> bytes.
Variable print : spec -> GoFmt.arg (list bytes) -> bytes.
Variable as_int : GoFmt.arg (list bytes) -> option Z.
Variable extra : list (GoFmt.arg (list bytes)) -> bytes.
Notation fmt_f := (fmt_f print as_int extra).
Notation started := (started norm).
Notation st := (@init (GoFmt.arg (list bytes))).
Lemma bind_global (s : @state (GoFmt.arg (list bytes))) h d wm wp : s_global (bind_fs norm s h d wm wp) = s_global s.
Proof. rewrite bind_fs_spec. cbn zeta. destruct (existsb _ _); reflexivity. Qed.
Lemma load_retarget d0 d wm wp :
  g_set_locale norm (g_load norm (st d0) wm wp) [] d = retarget (bind_fs norm (st d0) 0 default_domain wm wp) 0 default_domain d.
Proof.
  unfold g_set_locale, g_load, g_bind. change (g_domain (st d0)) with default_domain. change (s_global (st d0)) with 0.
  rewrite bind_global. change (s_global (st d0)) with 0. unfold set_locale, retarget.
  replace (t_domain (the_ts (bind_fs norm (st d0) 0 default_domain wm wp) 0)) with default_domain; [reflexivity|].
  unfold the_ts. rewrite bind_ts. reflexivity.
Qed.
Lemma load_global d0 d wm wp : s_global (g_set_locale norm (g_load norm (st d0) wm wp) [] d) = 0.
Proof. rewrite load_retarget. unfold retarget, set_ts. cbn [s_global]. apply bind_global. Qed.
Lemma started_walk lp tree d0 d : exists w, started lp tree d0 d = g_set_locale norm (g_load norm (st d0) w w) [] d.
Proof.
  unfold XtLangModel.started, init_translation, load_tree. destruct lp as [p|]; [destruct (blank_text p)|]; eexists; reflexivity.
Qed.
Lemma started_global lp tree d0 d : s_global (started lp tree d0 d) = 0.
Proof. destruct (started_walk lp tree d0 d) as [w ->]. apply load_global. Qed.
Lemma started_path p tree d0 d : trim_space p <> [] ->
  started (Some p) tree d0 d = retarget (bind_fs norm (st d0) 0 default_domain (walk_dir (tree p)) (walk_dir (tree p))) 0 default_domain d.
Proof.
  intros H. unfold XtLangModel.started, init_translation, load_tree, blank_text. destruct (trim_space p) eqn:E; [congruence|]. cbn [is_empty].
  apply load_retarget.
Qed.
Lemma started_embedded lp tree d0 d : no_path lp -> started lp tree d0 d = retarget (bind_tree norm (st d0) 0 default_domain embedded) 0 default_domain d.
Proof.
  intros H. unfold XtLangModel.started, init_translation, load_tree, blank_text. destruct lp as [p|]; [rewrite (H p eq_refl); cbn [is_empty]|]; apply load_retarget.
Qed.
Lemma init_source d0 d l : source_text fmt_f (retarget (st d0) 0 d l) 0.
Proof. apply no_domain; reflexivity. Qed.
Lemma missing_source wm wp d0 d : ~ (some_loaded (B ".mo") wm \/ some_loaded (B ".po") wp) ->
  source_text fmt_f (retarget (bind_fs norm (st d0) 0 default_domain wm wp) 0 default_domain d) 0.
Proof.
  intros N. destruct (C38_nothing fmt_f norm (st d0) 0 default_domain wm wp (R_init fmt_f norm d0) (le_n 1) N) as [_ V].
  destruct (V default_domain d) as (_ & _ & _ & _ & _ & _ & Vx & Vn). destruct (init_source d0 default_domain d) as [S1 S2]. split.
  - intros c i args. rewrite <- Vx. apply S1.
  - intros c i i2 n args. rewrite <- Vn. apply S2.
Qed.
Lemma none_source t d0 d : distinct t -> nowhere t (B ".po") (po_of norm d) -> nowhere t (B ".mo") (mo_of norm d) ->
  source_text fmt_f (retarget (bind_tree norm (st d0) 0 default_domain t) 0 default_domain d) 0.
Proof.
  intros D Np Nm.
  destruct (existsb okb (hits (B ".mo") (events t) ++ hits (B ".po") (events t))) eqn:E.
  - apply some_loaded_iff in E. refine (proj1 (C59_none fmt_f norm (st d0) 0 default_domain t d (R_init fmt_f norm d0) (le_n 1) D Np Nm) _).
    destruct E as [E|E]; [right; apply loaded_mo|left; apply loaded_po]; assumption.
  - apply missing_source. intros H. apply some_loaded_iff in H. cbn [walk_dir] in H. congruence.
Qed.
Lemma embedded_distinct : distinct embedded.
Proof.
  repeat (constructor || (intros t [<-|I]; [|revert t I]) || (intros t [])); cbn [map node_name In]; intros I; repeat (destruct I as [I|I]; [discriminate|]); exact I.
Qed.
Lemma embedded_files q c : visible embedded q c -> q = [B "."; B "lang"; B "zh_CN.po"] /\ c = zh_CN_po.
Proof.
  intros [H _]. inversion H as [|? ? t p ? I Ht]; subst. destruct I as [<-|[]]. inversion Ht as [|? ? t' p' ? I' Ht']; subst. destruct I' as [<-|[]].
  inversion Ht'; subst. auto.
Qed.
Lemma embedded_visible : visible embedded [B "."; B "lang"; B "zh_CN.po"] zh_CN_po.
Proof.
  split.
  - apply AP_dir with (t := NDir (B "lang") (Some [NFile (B "zh_CN.po") (Content zh_CN_po)])); [left; reflexivity|].
    apply AP_dir with (t := NFile (B "zh_CN.po") (Content zh_CN_po)); [left; reflexivity|]. constructor.
  - intros q H. inversion H as [|? ? t p I Ht]; subst. destruct I as [<-|[]]. inversion Ht as [|? ? t' p' I' Ht']; subst. destruct I' as [<-|[]]. inversion Ht'.
Qed.
Lemma po_of_some c f l : as_po c = Some f -> (po_of norm l c <-> speaks norm l f).
Proof.
  intros E. unfold po_of. split.
  - intros (g & Eg & H). rewrite E in Eg. injection Eg as <-. exact H.
  - intros H. exists f. auto.
Qed.
Lemma speaks_lang f l n : fst (lang f) = n -> n <> [] -> (speaks norm l f <-> l = norm n).
Proof. intros E N. unfold speaks. rewrite E. split; [intros [_ <-]; reflexivity|intros ->; auto]. Qed.
Lemma zh_po_of l : po_of norm l zh_CN_po <-> l = norm (B "zh_CN").
Proof.
  rewrite (po_of_some _ _ l zh_as_po). apply speaks_lang; [exact zh_lang|discriminate].
Qed.
Lemma embedded_answers d0 d : let s := retarget (bind_tree norm (st d0) 0 default_domain embedded) 0 default_domain d in
  (d = norm (B "zh_CN") -> answers_from fmt_f s 0 zh_file) /\ (d <> norm (B "zh_CN") -> source_text fmt_f s 0).
Proof.
  cbn zeta. split; intros E.
  - apply (C59_po fmt_f norm (st d0) 0 default_domain embedded d zh_CN_po zh_file (R_init fmt_f norm d0) (le_n 1) embedded_distinct); [|exact zh_as_po].
    eexists. split; [exact embedded_visible|]. split; [exists [B "."; B "lang"], (B "zh_CN"); reflexivity|]. split; [apply zh_po_of, E|].
    intros q c' V _ _. left. apply (embedded_files q c' V).
  - apply none_source; [exact embedded_distinct| |].
    + intros q c V _ P. apply embedded_files in V as [_ ->]. apply zh_po_of in P. contradiction.
    + intros q c V N _. apply embedded_files in V as [-> _]. apply (named_iff (B ".mo") [B "."; B "lang"] (B "zh_CN.po")) in N. vm_compute in N. discriminate.
Qed.
(** the messages of the shipped program *)
Lemma shipped lp tree d0 d : no_path lp -> let s := started lp tree d0 d in
  (d = norm (B "zh_CN") -> forall m args, m <> [] -> g_T fmt_f s m args = fmt_f (zh_text m) args)
  /\ (d <> norm (B "zh_CN") -> forall m args, g_T fmt_f s m args = fmt_f m args).
Proof.
  intros H. cbn zeta. destruct (embedded_answers d0 d) as [A1 A2]. rewrite <- (started_embedded lp tree d0 d H) in A1, A2.
  unfold g_T. rewrite started_global. split; intros E.
  - intros m args Nm. rewrite (proj1 (A1 E)). apply zh_x, Nm.
  - intros m args. apply (proj1 (A2 E)).
Qed.
Lemma shipped_own lp tree d0 d : no_path lp -> exists tr, (tr = zh_text \/ tr = fun m => m)
  /\ forall m, m <> [] -> own_text print as_int extra (started lp tree d0 d) m = tr m.
Proof.
  intros H. destruct (shipped lp tree d0 d H) as [S1 S2]. unfold own_text. destruct (beq d (norm (B "zh_CN"))) eqn:E.
  - apply beq_eq in E. exists zh_text. split; [auto|]. intros m Nm. rewrite (S1 E m [] Nm). reflexivity.
  - exists (fun m => m). split; [auto|]. intros m Nm. apply S2. intros ->. rewrite beq_refl in E. discriminate.
Qed.
Lemma shipped_sound lp tree d0 d : no_path lp -> sound (own_text print as_int extra (started lp tree d0 d)).
Proof.
  intros H. destruct (shipped_own lp tree d0 d H) as (tr & T & E). apply (sound_ext tr); [exact E|]. destruct T as [-> | ->]; [exact zh_sound|exact id_sound].
Qed.
End Start.
