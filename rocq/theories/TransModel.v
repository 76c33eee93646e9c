(** Model of package t: /repo/translaton.go (one domain), /repo/translations.go
    (handles), /repo/init.go and /repo/gettext.go (the global handle),
    /repo/context.go, /repo/http.go, /repo/matcher.go and /repo/translator.go.

    The heap is explicit: [*Translations], Go maps from domains to
    [*Translation], [*Translation] and [*File] are addresses (positions in the
    lists of [state]), so that sharing is visible.  A [*Translation] owns its
    [langs] map, which is never assigned nor shared.  Zero values and copying a
    [Translations] struct by value (which shares its map): ZeroModel.v. *)
From Coq Require Import Permutation.
From Verif Require Import GoStr GoMap FileModel PoModel MoModel.

Section Trans.
(** arguments of X and XN64, and [f.Format] *)
Context {A : Type}.
Variable fmt : bytes -> list A -> bytes.
(** locale/detect.go:21-30, [language.Make] and tags of golang.org/x/text *)
Variable norm : bytes -> bytes.

(** ** Translators: translator/translator.go:4-11 and translator.go:9-24 *)
(** any other implementation of the interface; its methods are functions *)
(* translator/translator.go:4-11 *)
Record user := { u_lang : bytes; u_x : bytes -> bytes -> list A -> bytes;
                 u_xn : bytes -> bytes -> bytes -> Z -> list A -> bytes }.
(* translator.go:9-16, translator/file.go:22 *)
Inductive tor := TNoop | TFile (a : nat) | TUser (u : user).
(** translaton.go:22-25 *)
Record translation := { tr_domain : bytes; tr_langs : gmap tor }.
(** translations.go:18-24; [t_map] is the address of the map *)
Record tsrec := { t_locale : bytes; t_domain : bytes; t_map : nat; t_source : bytes }.
(* the variable of init.go:7 and everything reachable: handles, maps, translations, catalogs *)
Record state := { s_ts : list tsrec; s_maps : list (gmap nat); s_trs : list translation;
                  s_files : list file; s_global : nat }.

(** heap access *)
(* assignment through the pointers of translations.go:18-24 and translaton.go:22-25 *)
Fixpoint upd {X} (n : nat) (x : X) (l : list X) : list X :=
  match l, n with
  | [], _ => []
  | _ :: r, O => x :: r
  | y :: r, S n' => y :: upd n' x r
  end.
(* no counterpart in /repo: the default of [nth], never reached (TransFacts) *)
Definition no_tr : translation := {| tr_domain := []; tr_langs := [] |}.
(* no counterpart in /repo: the default of [nth], never reached (TransFacts) *)
Definition no_ts : tsrec := {| t_locale := []; t_domain := []; t_map := 0; t_source := [] |}.
(* reading through a *Translations (translations.go:18-24) *)
Definition the_ts (s : state) (h : nat) : tsrec := nth h (s_ts s) no_ts.
(* reading the map of translations.go:22 *)
Definition the_map (s : state) (m : nat) : gmap nat := nth m (s_maps s) [].
(* reading through a *Translation (translaton.go:22-25) *)
Definition the_tr (s : state) (t : nat) : translation := nth t (s_trs s) no_tr.
(* reading through a *File (translator/file.go:22-26) *)
Definition the_file (s : state) (a : nat) : file := nth a (s_files s) new_file.
(* assigning through a *Translations (translations.go:18-24) *)
Definition set_ts (s : state) (h : nat) (t : tsrec) : state :=
  {| s_ts := upd h t (s_ts s); s_maps := s_maps s; s_trs := s_trs s; s_files := s_files s; s_global := s_global s |}.
(* assigning to the map of translations.go:22 *)
Definition set_map (s : state) (m : nat) (g : gmap nat) : state :=
  {| s_ts := s_ts s; s_maps := upd m g (s_maps s); s_trs := s_trs s; s_files := s_files s; s_global := s_global s |}.
(* assigning through a *Translation (translaton.go:22-25) *)
Definition set_tr (s : state) (t : nat) (x : translation) : state :=
  {| s_ts := s_ts s; s_maps := s_maps s; s_trs := upd t x (s_trs s); s_files := s_files s; s_global := s_global s |}.
(* assigning through a *File (translator/file.go:22-26) *)
Definition set_file (s : state) (a : nat) (f : file) : state :=
  {| s_ts := s_ts s; s_maps := s_maps s; s_trs := s_trs s; s_files := upd a f (s_files s); s_global := s_global s |}.
(* allocation: translations.go:28, 38 *)
Definition new_ts (s : state) (t : tsrec) : nat * state :=
  (length (s_ts s),
   {| s_ts := s_ts s ++ [t]; s_maps := s_maps s; s_trs := s_trs s; s_files := s_files s; s_global := s_global s |}).
(* allocation: translations.go:32, 42, 81 *)
Definition new_map (s : state) (g : gmap nat) : nat * state :=
  (length (s_maps s),
   {| s_ts := s_ts s; s_maps := s_maps s ++ [g]; s_trs := s_trs s; s_files := s_files s; s_global := s_global s |}).
(* allocation: translaton.go:29 *)
Definition new_tr (s : state) (x : translation) : nat * state :=
  (length (s_trs s),
   {| s_ts := s_ts s; s_maps := s_maps s; s_trs := s_trs s ++ [x]; s_files := s_files s; s_global := s_global s |}).
(* allocation: translator/po.go:33, mo.go:92-196 *)
Definition new_f (s : state) (f : file) : nat * state :=
  (length (s_files s),
   {| s_ts := s_ts s; s_maps := s_maps s; s_trs := s_trs s; s_files := s_files s ++ [f]; s_global := s_global s |}).

(** the methods of a translator: translator.go:18-24 and file.go *)
Definition tor_lang (s : state) (t : tor) : bytes * state :=
  match t with
  | TNoop => ([], s)
  | TFile a => let (l, f) := lang (the_file s a) in (l, set_file s a f)
  | TUser u => (u_lang u, s)
  end.
(* translator.go:19-21 and translator/file.go:35-41, or a translator of the user *)
Definition tor_x (s : state) (t : tor) (c i : bytes) (args : list A) : bytes :=
  match t with
  | TNoop => fmt i args
  | TFile a => f_x fmt (the_file s a) c i args
  | TUser u => u_x u c i args
  end.
(* translator.go:22-24 and translator/file.go:44-66, or a translator of the user *)
Definition tor_xn (s : state) (t : tor) (c i i2 : bytes) (n : Z) (args : list A) : xres * state :=
  match t with
  | TNoop => (XStr (default_plural fmt i i2 n args), s)
  | TFile a => let (r, f) := f_xn64 fmt (the_file s a) c i i2 n args in (r, set_file s a f)
  | TUser u => (XStr (u_xn u c i i2 n args), s)
  end.

(** ** One domain: translaton.go *)
(** 37-49: the previous translator and the state afterwards *)
Definition add_or_replace (s : state) (t : nat) (x : tor) : option tor * state :=
  let (lang, s) := tor_lang s x in
  match lang with
  | [] => (None, s)
  | _ =>
      let lang := norm lang in
      let r := the_tr s t in
      (mget lang (tr_langs r),
       set_tr s t {| tr_domain := tr_domain r; tr_langs := mput lang x (tr_langs r) |})
  end.
(** 28-34 without translators (the variadic argument is a sequence of
    [add_or_replace]) *)
Definition new_translation (s : state) (domain : bytes) : nat * state :=
  new_tr s {| tr_domain := domain; tr_langs := [] |}.
(** 52-64 *)
Definition tr_get (r : translation) (lang : bytes) : option tor := mget lang (tr_langs r).
(* translaton.go:59-64 *)
Definition tr_get_or_noop (r : translation) (lang : bytes) : tor :=
  match mget lang (tr_langs r) with Some x => x | None => TNoop end.
(** 113-130; [true] is a nil error.  ReadPo and ReadMo return a catalog or an
    error (C24, C32), the other cases do not happen. *)
Definition load_po (s : state) (t : nat) (content : bytes) : bool * state :=
  match read_po content with
  | PoOk f => let (a, s) := new_f s f in (true, snd (add_or_replace s t (TFile a)))
  | _ => (false, s)
  end.
(* translaton.go:123-130 *)
Definition load_mo (s : state) (t : nat) (content : bytes) : bool * state :=
  match read_mo content with
  | MoOk f => let (a, s) := new_f s f in (true, snd (add_or_replace s t (TFile a)))
  | _ => (false, s)
  end.
(** an opened [fs.File]: the name in [Stat] and the bytes [io.ReadAll] gives *)
(* the argument of translaton.go:94 *)
Record fsfile := { ff_name : option bytes; ff_content : option bytes }.
(* translaton.go:12-16 *)
Definition ext_po : bytes := B ".po".
(* translaton.go:12-16 *)
Definition ext_mo : bytes := B ".mo".
(** 94-110 *)
Definition load_file (s : state) (t : nat) (f : fsfile) : bool * state :=
  match ff_name f with
  | None => (false, s)
  | Some name =>
      match ff_content f with
      | None => (false, s)
      | Some content =>
          if has_suffix ext_po name then load_po s t content
          else if has_suffix ext_mo name then load_mo s t content
          else (true, s)
      end
  end.
(** the calls [fs.WalkDir] makes: an error, or a directory entry with what
    [f.Open] of its path gives.  [fs.WalkDir] stops when the callback returns
    an error, which it does exactly on errors. *)
(* the callbacks of translaton.go:71-86 *)
Inductive event := EErr | EEntry (dir : bool) (name : bytes) (opened : option fsfile).
(** 67-91, one walk *)
Fixpoint walk (ext : bytes) (s : state) (t : nat) (loaded : bool) (w : list event) : bool * state :=
  match w with
  | [] => (loaded, s)
  | EErr :: _ => (loaded, s)
  | EEntry dir name opened :: r =>
      if negb dir && has_suffix ext name then
        match opened with
        | None => walk ext s t loaded r
        | Some f => let (ok, s) := load_file s t f in walk ext s t (loaded || ok) r
        end
      else walk ext s t loaded r
  end.
(** 67-91: [wm] and [wp] are what the two walks see *)
Definition load_fs (s : state) (t : nat) (wm wp : list event) : bool * state :=
  let (loaded, s) := walk ext_mo s t false wm in walk ext_po s t loaded wp.

(** ** Handles: translations.go *)
(* translations.go:11 *)
Definition default_domain : bytes := B "default".
(* translations.go:14 *)
Definition default_source : bytes := B "en_US".
(** 27-34; [d] is the system locale of locale/detect.go:15-18 at that moment *)
Definition new_translations (s : state) (d : bytes) : nat * state :=
  let (m, s) := new_map s [] in
  new_ts s {| t_locale := d; t_domain := default_domain; t_map := m; t_source := default_source |}.
(** 37-50 *)
Definition clone (s : state) (h : nat) : nat * state :=
  let r := the_ts s h in
  let (m, s) := new_map s (the_map s (t_map r)) in
  new_ts s {| t_locale := t_locale r; t_domain := t_domain r; t_map := m; t_source := t_source r |}.
(** 54-59 *)
Definition bind_fs (s : state) (h : nat) (domain : bytes) (wm wp : list event) : state :=
  let (t, s) := new_translation s domain in
  let (loaded, s) := load_fs s t wm wp in
  if loaded then let m := t_map (the_ts s h) in set_map s m (mput domain t (the_map s m)) else s.
(** 86-88, 96-103, 106-111, 114-116, 166 *)
Definition h_domain (s : state) (h : nat) : bytes := t_domain (the_ts s h).
(* translations.go:21 *)
Definition h_domains (s : state) (h : nat) : gmap nat := the_map s (t_map (the_ts s h)).
(* translations.go:96-103 *)
Definition has_domain (s : state) (h : nat) (d : bytes) : bool := existsb (beq d) (keys (h_domains s h)).
(* translations.go:114-116 *)
Definition h_locale (s : state) (h : nat) : bytes := t_locale (the_ts s h).
(* translations.go:166 *)
Definition h_source (s : state) (h : nat) : bytes := t_source (the_ts s h).
(** 91-93, 156-163, 169-172 *)
Definition set_domain (s : state) (h : nat) (domain : bytes) : state :=
  let r := the_ts s h in
  set_ts s h {| t_locale := t_locale r; t_domain := domain; t_map := t_map r; t_source := t_source r |}.
(* translations.go:156-163; [d]: locale.GetDefault() *)
Definition set_locale (s : state) (h : nat) (lang d : bytes) : state :=
  let r := the_ts s h in
  let l := match lang with [] => d | _ => norm lang end in
  set_ts s h {| t_locale := l; t_domain := t_domain r; t_map := t_map r; t_source := t_source r |}.
(* translations.go:169-172 *)
Definition set_source (s : state) (h : nat) (lang : bytes) : state :=
  let r := the_ts s h in
  set_ts s h {| t_locale := t_locale r; t_domain := t_domain r; t_map := t_map r; t_source := norm lang |}.
(** 63-75 *)
Definition remove_domain (s : state) (h : nat) (domain : bytes) : bool * state :=
  match domain with
  | [] => (false, s)
  | _ =>
      if negb (has_domain s h domain) then (false, s) else
      let m := t_map (the_ts s h) in
      let s := set_map s m (mdel domain (the_map s m)) in
      (true, if beq (h_domain s h) domain then set_domain s h default_domain else s)
  end.
(** 80-83 *)
Definition clear_domains (s : state) (h : nat) : state :=
  let (m, s) := new_map s [] in
  let r := the_ts s h in
  set_ts s h {| t_locale := t_locale r; t_domain := default_domain; t_map := m; t_source := t_source r |}.
(** 176-188; translaton.go:18: [trNoop] is the first translation *)
Definition tr_noop : nat := 0.
(* translations.go:176-179 *)
Definition h_get (s : state) (h : nat) (domain : bytes) : option nat := mget domain (h_domains s h).
(* translations.go:183-188 *)
Definition h_get_or_noop (s : state) (h : nat) (domain : bytes) : nat :=
  match h_get s h domain with Some t => t | None => tr_noop end.
(** 119-133: the map is visited in any order, [sort.Strings] gives the sorted
    permutation *)
Definition collect (source : bytes) (langs : list bytes) : list bytes :=
  fold_left (fun ls l => let l := norm l in if existsb (beq l) ls then ls else ls ++ [l]) langs [source].
(* translations.go:131, what sort.Strings leaves *)
Fixpoint sorted_strings (l : list bytes) : Prop :=
  match l with
  | [] => True
  | x :: r => (forall y, In y r -> bltb y x = false) /\ sorted_strings r
  end.
(* translations.go:119-133 *)
Definition locales (s : state) (h : nat) (out : list bytes) : Prop :=
  let tr := the_tr s (h_get_or_noop s h (h_domain s h)) in
  exists order, Permutation order (keys (tr_langs tr))
    /\ Permutation out (collect (h_source s h) order) /\ sorted_strings out.
(** 143-153 *)
Definition used_locale (s : state) (h : nat) : bytes :=
  match h_get s h (h_domain s h) with
  | None => h_source s h
  | Some t => match tr_get (the_tr s t) (h_locale s h) with None => h_source s h | Some _ => h_locale s h end
  end.
(** 191-202: the new handle and the state *)
Definition h_D (s : state) (h : nat) (domain : bytes) : nat * state :=
  let (r, s) := clone s h in (r, set_domain s r domain).
(* translations.go:198-202 *)
Definition h_L (s : state) (h : nat) (lang d : bytes) : nat * state :=
  let (r, s) := clone s h in (r, set_locale s r lang d).
(** 230-234 and 247-251 *)
Definition the_tor (s : state) (h : nat) : tor :=
  tr_get_or_noop (the_tr s (h_get_or_noop s h (h_domain s h))) (h_locale s h).
(* translations.go:230-234 *)
Definition h_x (s : state) (h : nat) (c i : bytes) (args : list A) : bytes := tor_x s (the_tor s h) c i args.
(* translations.go:247-251 *)
Definition h_xn64 (s : state) (h : nat) (c i i2 : bytes) (n : Z) (args : list A) : xres * state :=
  tor_xn s (the_tor s h) c i i2 n args.
(** 205-227, 237-244, 254-256; an [int] is an [int64] on a 64-bit platform *)
Definition h_t s h i args := h_x s h [] i args.
(* translations.go:210-212 *)
Definition h_n s h i i2 n args := h_xn64 s h [] i i2 n args.
(* translations.go:215-217 *)
Definition h_n1 s h i n args := h_xn64 s h [] i [] n args.
(* translations.go:220-222 *)
Definition h_n1_64 s h i n args := h_xn64 s h [] i [] n args.
(* translations.go:225-227 *)
Definition h_n64 s h i i2 n args := h_xn64 s h [] i i2 n args.
(* translations.go:237-239 *)
Definition h_xn s h c i i2 n args := h_xn64 s h c i i2 n args.
(* translations.go:242-244 *)
Definition h_xn1 s h c i n args := h_xn64 s h c i [] n args.
(* translations.go:254-256 *)
Definition h_xn1_64 s h c i n args := h_xn64 s h c i [] n args.

(** ** The global handle: init.go *)
(* init.go:10-12 *)
Definition g_clone (s : state) : nat * state := clone s (s_global s).
(* init.go:15-17 *)
Definition set_global (s : state) (h : nat) : state :=
  {| s_ts := s_ts s; s_maps := s_maps s; s_trs := s_trs s; s_files := s_files s; s_global := h |}.
(** init.go:7 and translaton.go:18: the program starts *)
Definition init (d : bytes) : state :=
  {| s_ts := [{| t_locale := d; t_domain := default_domain; t_map := 0; t_source := default_source |}];
     s_maps := [[]]; s_trs := [{| tr_domain := []; tr_langs := [] |}]; s_files := []; s_global := 0 |}.

(** translations.go:136-140 and matcher.go: [mtch supported wanted] is the index
    [Match] gives (the tag cache is transparent, C46); [None] is the index
    panic.  The method asks the global handle. *)
Variable mtch : list bytes -> list bytes -> nat.
(* translations.go:136-140 *)
Definition most_match_locale (s : state) (h : nat) (out : option bytes) : Prop :=
  exists supported, locales s (s_global s) supported
    /\ out = nth_error supported (mtch supported [h_locale s (s_global s)]).

(** ** context.go.  A context is a chain of values (other wrappers pass
    [Value] on); the key types are private, so only this package stores under
    the two keys; [KOther] are all other keys. *)
(* context.go:5-13; [KOther]: a key of another package *)
Inductive ckey := KLang | KDomain | KOther (k : nat).
(* the values of context.go:15-33 *)
Inductive cval := VString (s : bytes) | VOther (n : nat).
(* context.Context, used at context.go:15-44 *)
Inductive ctx := CBackground | CValue (c : ctx) (k : ckey) (v : cval) | CWrap (c : ctx).
(* used by ctx.Value at context.go:24, 30 *)
Definition ckey_eqb (a b : ckey) : bool :=
  match a, b with
  | KLang, KLang => true
  | KDomain, KDomain => true
  | KOther n, KOther m => Nat.eqb n m
  | _, _ => false
  end.
(** [context.Value] *)
(* called at context.go:24, 30 *)
Fixpoint cvalue (c : ctx) (k : ckey) : option cval :=
  match c with
  | CBackground => None
  | CValue c' k' v => if ckey_eqb k k' then Some v else cvalue c' k
  | CWrap c' => cvalue c' k
  end.
(** 15-33 *)
Definition set_ctx_locale (c : ctx) (l : bytes) : ctx := CValue c KLang (VString l).
(* context.go:19-21 *)
Definition set_ctx_domain (c : ctx) (d : bytes) : ctx := CValue c KDomain (VString d).
(* the type assertions of context.go:25 and 31 *)
Definition as_string (v : option cval) : option bytes := match v with Some (VString s) => Some s | _ => None end.
(* context.go:23-27 *)
Definition get_ctx_locale (c : ctx) : option bytes := as_string (cvalue c KLang).
(* context.go:29-33 *)
Definition get_ctx_domain (c : ctx) : option bytes := as_string (cvalue c KDomain).
(** 35-44 *)
Definition with_context (s : state) (c : ctx) (d : bytes) : nat * state :=
  let (h, s) := g_clone s in
  let (h, s) := match get_ctx_locale c with Some l => h_L s h l d | None => (h, s) end in
  match get_ctx_domain c with Some dom => h_D s h dom | None => (h, s) end.

(** ** http.go:20-39.  [cookie] is [request.Cookie], [accept] the header;
    [mtch_http] is the index of the matcher for the parsed header. *)
Variable mtch_http : list bytes -> bytes -> nat.
(* http.go:20-39 *)
Definition get_user_lang (s : state) (cookie : bytes -> option bytes) (accept : bytes)
    (opts : list bytes) (out : option bytes) : Prop :=
  let name := fold_left (fun _ o => o) opts (B "lang") in
  match cookie name with
  | Some v => out = Some v
  | None => exists langs, locales s (s_global s) langs /\ out = nth_error langs (mtch_http langs accept)
  end.

(** ** Programs.  What a program does with the package, one call after the
    other; handles, translations and files are addresses it got before. *)
(* the calls of init.go, translations.go, context.go:35 and translaton.go:28-130 a program can make *)
Inductive op :=
| ONew (d : bytes) | OGlobal | OSetGlobal (h : nat)
| OD (h : nat) (domain : bytes) | OL (h : nat) (lang d : bytes) | OWith (c : ctx) (d : bytes)
| OSetDomain (h : nat) (domain : bytes) | OSetLocale (h : nat) (lang d : bytes) | OSetSource (h : nat) (lang : bytes)
| OBind (h : nat) (domain : bytes) (wm wp : list event)
| ORemove (h : nat) (domain : bytes) | OClear (h : nat)
| OX (h : nat) (c i : bytes) (args : list A) | OXN (h : nat) (c i i2 : bytes) (n : Z) (args : list A)
| ONewTr (domain : bytes) | OAdd (t : nat) (x : tor) | OLoadPo (t : nat) (content : bytes)
| OLoadMo (t : nat) (content : bytes) | OLoadFS (t : nat) (wm wp : list event)
| ONewFile (f : file) | OAddEntry (a : nat) (e : entry).
(* init.go, translations.go, context.go:35, translaton.go:28-130 *)
Definition do_op (s : state) (o : op) : state :=
  match o with
  | ONew d => snd (new_translations s d)
  | OGlobal => snd (g_clone s)
  | OSetGlobal h => set_global s h
  | OD h d => snd (h_D s h d)
  | OL h l d => snd (h_L s h l d)
  | OWith c d => snd (with_context s c d)
  | OSetDomain h d => set_domain s h d
  | OSetLocale h l d => set_locale s h l d
  | OSetSource h l => set_source s h l
  | OBind h d wm wp => bind_fs s h d wm wp
  | ORemove h d => snd (remove_domain s h d)
  | OClear h => clear_domains s h
  | OX _ _ _ _ => s
  | OXN h c i i2 n args => snd (h_xn64 s h c i i2 n args)
  | ONewTr d => snd (new_translation s d)
  | OAdd t x => snd (add_or_replace s t x)
  | OLoadPo t c => snd (load_po s t c)
  | OLoadMo t c => snd (load_mo s t c)
  | OLoadFS t wm wp => snd (load_fs s t wm wp)
  | ONewFile f => snd (new_f s f)
  | OAddEntry a e => set_file s a (add_entry (the_file s a) e)
  end.
(** a call with addresses the program has: handles, translations, files *)
(* no counterpart in /repo: the argument of an [op] exists *)
Definition tor_known (s : state) (x : tor) : Prop := match x with TFile a => a < length (s_files s) | _ => True end.
(* no counterpart in /repo: the argument of an [op] exists *)
Definition known (s : state) (o : op) : Prop :=
  match o with
  | OSetGlobal h | OD h _ | OL h _ _ | OSetDomain h _ | OSetLocale h _ _ | OSetSource h _
  | OBind h _ _ _ | ORemove h _ | OClear h | OX h _ _ _ | OXN h _ _ _ _ _ => h < length (s_ts s)
  | OAdd t x => t < length (s_trs s) /\ tor_known s x
  | OLoadPo t _ | OLoadMo t _ | OLoadFS t _ _ => t < length (s_trs s)
  | OAddEntry a _ => a < length (s_files s)
  | _ => True
  end.
(* no counterpart in /repo: the states of any program that starts at init.go:7 *)
Inductive reach : state -> Prop :=
| R_init d : reach (init d)
| R_step s o : reach s -> known s o -> reach (do_op s o).
End Trans.
Arguments TNoop {A}. Arguments TFile {A}. Arguments TUser {A}.
