(** Goroutines that make handles, change them and translate through them at the
    same time: /repo/translations.go, /repo/init.go, /repo/context.go and
    /repo/translator.go as programs whose accesses to shared memory are single
    steps.  The memory is the [state] of TransModel.v.  Steps of different
    goroutines interleave in any order (sequential consistency); whether two
    accesses are a data race in the sense of Go is stated in HandleConcSpec.v.
    Simplified: a visit of a whole map (translations.go:43, 97, 108, 124) is one
    access.  Not in this memory: the cache of tags (tag.go), see C46. *)
From Verif Require Import GoStr GoMap FileModel TransModel ConcModel.

(** the places of the shared memory: the variable [global] (init.go:7), the
    fields of a [Translations] (translations.go:18-24), the map it points to,
    the [langs] map of a [Translation] (translaton.go:24) and the fields of a
    [File] (translator/file.go:22-26) *)
Inductive place :=
| PGlobal | PLocale (h : nat) | PDomain (h : nat) | PDomains (h : nat) | PSource (h : nat)
| PMap (m : nat) | PLangs (t : nat) | PEntries (a : nat) | PHeaders (a : nat) | PPlural (a : nat).

Section HandleConc.
Context {A : Type}.
Variable fmt : bytes -> list A -> bytes.
Variable norm : bytes -> bytes.
Notation state := (@state A).

(* the types of init.go:7, translations.go:18-24, translaton.go:24, translator/file.go:22-26 *)
Definition holds (p : place) : Type :=
  match p with
  | PGlobal => nat
  | PLocale _ | PDomain _ | PSource _ => bytes
  | PDomains _ => nat
  | PMap _ => gmap nat
  | PLangs _ => gmap (@tor A)
  | PEntries _ => gmap entry
  | PHeaders _ => option (gmap bytes)
  | PPlural _ => option plural
  end.
(* reading init.go:7, translations.go:18-24, translaton.go:24, translator/file.go:22-26 *)
Definition get (s : state) (p : place) : holds p :=
  match p with
  | PGlobal => s_global s
  | PLocale h => t_locale (the_ts s h)
  | PDomain h => t_domain (the_ts s h)
  | PSource h => t_source (the_ts s h)
  | PDomains h => t_map (the_ts s h)
  | PMap m => the_map s m
  | PLangs t => tr_langs (the_tr s t)
  | PEntries a => f_entries (the_file s a)
  | PHeaders a => f_headers (the_file s a)
  | PPlural a => f_plural (the_file s a)
  end.
(* assigning to a field of translations.go:18-24 *)
Definition with_locale (r : tsrec) (l : bytes) : tsrec := {| t_locale := l; t_domain := t_domain r; t_map := t_map r; t_source := t_source r |}.
(* ts.domain = d, translations.go:20 *)
Definition with_domain (r : tsrec) (d : bytes) : tsrec := {| t_locale := t_locale r; t_domain := d; t_map := t_map r; t_source := t_source r |}.
(* ts.sourceCodeLocale = l, translations.go:23 *)
Definition with_source (r : tsrec) (l : bytes) : tsrec := {| t_locale := t_locale r; t_domain := t_domain r; t_map := t_map r; t_source := l |}.
(* ts.domains = m, translations.go:21 *)
Definition with_map (r : tsrec) (m : nat) : tsrec := {| t_locale := t_locale r; t_domain := t_domain r; t_map := m; t_source := t_source r |}.
(* writing init.go:7, translations.go:18-24, translaton.go:24, translator/file.go:22-26 *)
Definition put (s : state) (p : place) : holds p -> state :=
  match p return holds p -> state with
  | PGlobal => fun h => set_global s h
  | PLocale h => fun v => set_ts s h (with_locale (the_ts s h) v)
  | PDomain h => fun v => set_ts s h (with_domain (the_ts s h) v)
  | PSource h => fun v => set_ts s h (with_source (the_ts s h) v)
  | PDomains h => fun v => set_ts s h (with_map (the_ts s h) v)
  | PMap m => fun v => set_map s m v
  | PLangs t => fun v => set_tr s t {| tr_domain := tr_domain (the_tr s t); tr_langs := v |}
  | PEntries a => fun v => set_file s a {| f_entries := v; f_headers := f_headers (the_file s a); f_plural := f_plural (the_file s a) |}
  | PHeaders a => fun v => set_file s a {| f_entries := f_entries (the_file s a); f_headers := v; f_plural := f_plural (the_file s a) |}
  | PPlural a => fun v => set_file s a {| f_entries := f_entries (the_file s a); f_headers := f_headers (the_file s a); f_plural := v |}
  end.

(** a goroutine: what it does next.  [Wr] replaces the value (the new one may
    depend on the old one: assignment to a map element); [NewTs] and [NewMap]
    allocate; [Load] is NewTranslation and LoadFS (translations.go:55-56), which
    work on memory no other goroutine knows yet: one step, giving the new
    translation if something was loaded *)
(* the accesses of translations.go:27-256 *)
Inductive gprog (R : Type) :=
| GRet (r : R)
| Rd (p : place) (k : holds p -> gprog R)
| Wr (p : place) (f : holds p -> holds p) (k : gprog R)
| NewTs (r : tsrec) (k : nat -> gprog R)
| NewMap (g : gmap nat) (k : nat -> gprog R)
| Load (domain : bytes) (wm wp : list event) (k : option nat -> gprog R).
Arguments GRet {R}. Arguments Rd {R}. Arguments Wr {R}. Arguments NewTs {R}. Arguments NewMap {R}. Arguments Load {R}.

(** one step of one goroutine *)
(* one access of translations.go:27-256 *)
Definition gstep {R} (s : state) (p : gprog R) : option (state * gprog R) :=
  match p with
  | GRet _ => None
  | Rd p k => Some (s, k (get s p))
  | Wr p f k => Some (put s p (f (get s p)), k)
  | NewTs r k => let (h, s) := new_ts s r in Some (s, k h)
  | NewMap g k => let (m, s) := new_map s g in Some (s, k m)
  | Load domain wm wp k =>
      let (t, s) := new_translation s domain in
      let (loaded, s) := load_fs norm s t wm wp in
      Some (s, k (if loaded then Some t else None))
  end.
(** any of the goroutines makes a step *)
(* no counterpart in /repo: the Go scheduler, see the head of this file *)
Inductive gsteps {R} : state * list (gprog R) -> state * list (gprog R) -> Prop :=
| GS_refl c : gsteps c c
| GS_step c s a p b s' p' : gsteps c (s, a ++ p :: b) -> gstep s p = Some (s', p') -> gsteps c (s', a ++ p' :: b).

Section Calls.
Context {R : Type}.
Notation prog := (gprog R).
(** translations.go:37-50.  The new map is private until the function returns:
    making and filling it is one step. *)
Definition clone_c (h : nat) (k : nat -> prog) : prog :=
  Rd (PLocale h) (fun lo => Rd (PDomain h) (fun d => Rd (PDomains h) (fun m => Rd (PMap m) (fun g =>
  NewMap g (fun m' => Rd (PSource h) (fun so =>
  NewTs {| t_locale := lo; t_domain := d; t_map := m'; t_source := so |} k)))))).
(** translations.go:91-93, 156-163, 169-172; [d] is the system locale *)
Definition set_domain_c (h : nat) (domain : bytes) (k : prog) : prog := Wr (PDomain h) (fun _ => domain) k.
(* translations.go:156-163 *)
Definition set_locale_c (h : nat) (lang d : bytes) (k : prog) : prog :=
  Wr (PLocale h) (fun _ => match lang with [] => d | _ => norm lang end) k.
(* translations.go:169-172 *)
Definition set_source_c (h : nat) (lang : bytes) (k : prog) : prog := Wr (PSource h) (fun _ => norm lang) k.
(** translations.go:191-202 *)
Definition D_c (h : nat) (domain : bytes) (k : nat -> prog) : prog := clone_c h (fun r => set_domain_c r domain (k r)).
(* translations.go:198-202 *)
Definition L_c (h : nat) (lang d : bytes) (k : nat -> prog) : prog := clone_c h (fun r => set_locale_c r lang d (k r)).
(** init.go:10-12 *)
Definition global_c (k : nat -> prog) : prog := Rd PGlobal (fun g => clone_c g k).
(** context.go:35-44 *)
Definition with_context_c (c : ctx) (d : bytes) (k : nat -> prog) : prog :=
  global_c (fun h =>
    let then_domain h := match get_ctx_domain c with Some dom => D_c h dom k | None => k h end in
    match get_ctx_locale c with Some l => L_c h l d then_domain | None => then_domain h end).
(** translations.go:27-34 *)
Definition new_c (d : bytes) (k : nat -> prog) : prog :=
  NewMap [] (fun m => NewTs {| t_locale := d; t_domain := default_domain; t_map := m; t_source := default_source |} k).
(** translations.go:54-59 *)
Definition bind_c (h : nat) (domain : bytes) (wm wp : list event) (k : prog) : prog :=
  Load domain wm wp (fun o =>
    match o with
    | None => k
    | Some t => Rd (PDomains h) (fun m => Wr (PMap m) (fun g => mput domain t g) k)
    end).
(** translations.go:96-103 *)
Definition has_c (h : nat) (domain : bytes) (k : bool -> prog) : prog :=
  Rd (PDomains h) (fun m => Rd (PMap m) (fun g => k (existsb (beq domain) (keys g)))).
(** translations.go:63-75 *)
Definition remove_c (h : nat) (domain : bytes) (k : bool -> prog) : prog :=
  match domain with
  | [] => k false
  | _ =>
      has_c h domain (fun b =>
        if negb b then k false
        else Rd (PDomains h) (fun m => Wr (PMap m) (fun g => mdel domain g)
               (Rd (PDomain h) (fun d => if beq d domain then Wr (PDomain h) (fun _ => default_domain) (k true) else k true))))
  end.
(** translations.go:80-83 *)
Definition clear_c (h : nat) (k : prog) : prog :=
  NewMap [] (fun m => Wr (PDomains h) (fun _ => m) (Wr (PDomain h) (fun _ => default_domain) k)).
(** translations.go:176-188 *)
Definition get_c (h : nat) (domain : bytes) (k : option nat -> prog) : prog :=
  Rd (PDomains h) (fun m => Rd (PMap m) (fun g => k (mget domain g))).
(** translations.go:143-153 *)
Definition used_c (h : nat) (k : bytes -> prog) : prog :=
  Rd (PDomain h) (fun dom => get_c h dom (fun o =>
    match o with
    | None => Rd (PSource h) k
    | Some t => Rd (PLocale h) (fun l => Rd (PLangs t) (fun ls =>
        match mget l ls with
        | None => Rd (PSource h) k
        | Some _ => Rd (PLocale h) k
        end))
    end)).
(** translations.go:106-113; the keys of the map *)
Definition domains_c (h : nat) (k : list bytes -> prog) : prog :=
  Rd (PDomains h) (fun m => Rd (PMap m) (fun g => k (keys g))).
(** translations.go:119-133; [k] gets the source language and the keys of [langs] *)
Definition locales_c (h : nat) (k : bytes -> list bytes -> prog) : prog :=
  Rd (PDomain h) (fun dom => get_c h dom (fun o =>
    let t := match o with Some t => t | None => tr_noop end in
    Rd (PSource h) (fun so => Rd (PLangs t) (fun ls => k so (keys ls))))).
(** translations.go:231-232, 248-249 with 183-188 and translaton.go:59-64 *)
Definition tor_c (h : nat) (k : @tor A -> prog) : prog :=
  Rd (PDomain h) (fun dom => get_c h dom (fun o =>
    let t := match o with Some t => t | None => tr_noop end in
    Rd (PLocale h) (fun l => Rd (PLangs t) (fun ls => k (match mget l ls with Some x => x | None => TNoop end))))).
(** a call of a method of the catalog [a] (ConcModel.v): translator/file.go:29-135 *)
Fixpoint lift {T} (a : nat) (p : ConcModel.prog T) (k : T -> prog) : prog :=
  match p with
  | Ret r => k r
  | ReadHeaders g => Rd (PHeaders a) (fun v => lift a (g v) k)
  | WriteHeaders v g => Wr (PHeaders a) (fun _ => Some v) (lift a g k)
  | ReadPlural g => Rd (PPlural a) (fun v => lift a (g v) k)
  | WritePlural v g => Wr (PPlural a) (fun _ => Some v) (lift a g k)
  end.
(* translator/file.go:29-135 *)
Definition file_c (a : nat) (o : @call A) (k : result -> prog) : prog := Rd (PEntries a) (fun es => lift a (run_call fmt es o) k).
(** translations.go:230-234 and translator.go:19-21, other translators as in TransModel *)
Definition x_c (h : nat) (c i : bytes) (args : list A) (k : result -> prog) : prog :=
  tor_c h (fun x =>
    match x with
    | TNoop => k (RText (fmt i args))
    | TFile a => file_c a (CX c i args) k
    | TUser u => k (RText (u_x u c i args))
    end).
(** translations.go:247-251 and translator.go:22-24 *)
Definition xn_c (h : nat) (c i i2 : bytes) (n : Z) (args : list A) (k : result -> prog) : prog :=
  tor_c h (fun x =>
    match x with
    | TNoop => k (RText (default_plural fmt i i2 n args))
    | TFile a => file_c a (CXN c i i2 n args) k
    | TUser u => k (RText (u_xn u c i i2 n args))
    end).
End Calls.

(** ** What a goroutine does: calls on the global handle (the functions of
    init.go and gettext.go), on a handle all goroutines know, or on a handle it
    made itself *)
(* the receivers of translations.go:54-256; [HGlob]: init.go:7 *)
Inductive href := HGlob | HShared (h : nat) | HOwn (i : nat).
(* the calls of translations.go, init.go, gettext.go:4-59, context.go:35 and http.go:20 ([cookie]: what request.Cookie
   gives); those that give a handle append it to the handles of the goroutine *)
Inductive rcall :=
| QNew (d : bytes) | QGlobal | QWith (c : ctx) (d : bytes)
| QD (h : href) (domain : bytes) | QL (h : href) (lang d : bytes)
| QSetDomain (h : href) (domain : bytes) | QSetLocale (h : href) (lang d : bytes) | QSetSource (h : href) (lang : bytes)
| QBind (h : href) (domain : bytes) (wm wp : list event) | QRemove (h : href) (domain : bytes) | QClear (h : href)
| QHas (h : href) (domain : bytes) | QDomain (h : href) | QLocale (h : href) | QSource (h : href) | QUsed (h : href)
| QDomains (h : href) | QLocales (h : href) | QMost (h : href) | QUserLang (cookie : option bytes)
| QX (h : href) (c i : bytes) (args : list A) | QXN (h : href) (c i i2 : bytes) (n : Z) (args : list A).
(** what the calls return: nothing or a handle, a bool, a text.  Simplified: Domains
    gives the names in the order of the map (the visit makes any order of them);
    Locales, MostMatchLocale and GetUserLang give the values from which the rest of
    their code, which touches nothing of this memory, computes the result: the
    source language and the languages of the domain (and the locale), see [shown]
    in HandleConcSpec.v *)
(* the results of translations.go:54-256, init.go, http.go:20-39 *)
Inductive ans :=
| ANone | ABool (b : bool) | AText (s : bytes) | ANames (names : list bytes) | ALangs (source : bytes) (langs : list bytes)
| AMatched (source : bytes) (langs : list bytes) (locale : bytes) | APanics.
(* the result of X and XN64: translations.go:233, 250 *)
Definition ans_of (r : result) : ans := match r with RText s => AText s | RHeader _ => ANone | RPanics => APanics end.
(* the receiver of a call; the functions of init.go and gettext.go read the variable of init.go:7 *)
Definition with_ref {R} (own : list nat) (h : href) (k : nat -> gprog R) : gprog R :=
  match h with
  | HGlob => Rd PGlobal k
  | HShared a => k a
  | HOwn i => k (nth i own 0)
  end.
(* one call; [k] gets the answer and the handles of the goroutine: translations.go, init.go, context.go:35, http.go:20 *)
Definition run_rcall {R} (own : list nat) (q : rcall) (k : ans -> list nat -> gprog R) : gprog R :=
  match q with
  | QNew d => new_c d (fun r => k ANone (own ++ [r]))
  | QGlobal => global_c (fun r => k ANone (own ++ [r]))
  | QWith c d => with_context_c c d (fun r => k ANone (own ++ [r]))
  | QD h dom => with_ref own h (fun a => D_c a dom (fun r => k ANone (own ++ [r])))
  | QL h l d => with_ref own h (fun a => L_c a l d (fun r => k ANone (own ++ [r])))
  | QSetDomain h dom => with_ref own h (fun a => set_domain_c a dom (k ANone own))
  | QSetLocale h l d => with_ref own h (fun a => set_locale_c a l d (k ANone own))
  | QSetSource h l => with_ref own h (fun a => set_source_c a l (k ANone own))
  | QBind h dom wm wp => with_ref own h (fun a => bind_c a dom wm wp (k ANone own))
  | QRemove h dom => with_ref own h (fun a => remove_c a dom (fun b => k (ABool b) own))
  | QClear h => with_ref own h (fun a => clear_c a (k ANone own))
  | QHas h dom => with_ref own h (fun a => has_c a dom (fun b => k (ABool b) own))
  | QDomain h => with_ref own h (fun a => Rd (PDomain a) (fun v => k (AText v) own))
  | QLocale h => with_ref own h (fun a => Rd (PLocale a) (fun v => k (AText v) own))
  | QSource h => with_ref own h (fun a => Rd (PSource a) (fun v => k (AText v) own))
  | QUsed h => with_ref own h (fun a => used_c a (fun v => k (AText v) own))
  | QDomains h => with_ref own h (fun a => domains_c a (fun l => k (ANames l) own))
  | QLocales h => with_ref own h (fun a => locales_c a (fun so ls => k (ALangs so ls) own))
  (* translations.go:136-140, init.go:57-59: the receiver is not used *)
  | QMost h => with_ref own h (fun _ =>
      Rd PGlobal (fun g => locales_c g (fun so ls => Rd PGlobal (fun g => Rd (PLocale g) (fun l => k (AMatched so ls l) own)))))
  (* http.go:20-39 *)
  | QUserLang (Some v) => k (AText v) own
  | QUserLang None => Rd PGlobal (fun g => locales_c g (fun so ls => k (ALangs so ls) own))
  | QX h c i args => with_ref own h (fun a => x_c a c i args (fun r => k (ans_of r) own))
  | QXN h c i i2 n args => with_ref own h (fun a => xn_c a c i i2 n args (fun r => k (ans_of r) own))
  end.
(** one call after the other; a panic ends the goroutine.  [acc]: the answers so far *)
(* no counterpart in /repo: a caller of translations.go, init.go, gettext.go and context.go *)
Fixpoint run_request (own : list nat) (acc : list ans) (qs : list rcall) : gprog (list ans) :=
  match qs with
  | [] => GRet acc
  | q :: qs => run_rcall own q (fun r own' =>
      match r with APanics => GRet (acc ++ [r]) | _ => run_request own' (acc ++ [r]) qs end)
  end.
End HandleConc.
Arguments GRet {A R}. Arguments Rd {A R}. Arguments Wr {A R}. Arguments NewTs {A R}. Arguments NewMap {A R}. Arguments Load {A R}.
Arguments QNew {A}. Arguments QGlobal {A}. Arguments QWith {A}. Arguments QD {A}. Arguments QL {A}. Arguments QSetDomain {A}.
Arguments QSetLocale {A}. Arguments QSetSource {A}. Arguments QBind {A}. Arguments QRemove {A}. Arguments QClear {A}. Arguments QHas {A}.
Arguments QDomain {A}. Arguments QLocale {A}. Arguments QSource {A}. Arguments QUsed {A}. Arguments QDomains {A}. Arguments QLocales {A}. Arguments QMost {A}. Arguments QUserLang {A}.
Arguments QX {A}. Arguments QXN {A}.
