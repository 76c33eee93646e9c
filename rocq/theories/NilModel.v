(** Calls whose receiver is a nil pointer: the methods of /repo/translations.go
    and the functions of /repo/init.go, /repo/gettext.go, /repo/context.go and
    /repo/http.go on a nil [*Translations] (NewTranslations never returns one,
    but [SetGlobal(nil)] and [var h *Translations] make one), and the methods of
    /repo/translaton.go on a nil [*Translation] (the first result of [Get] for
    an unknown domain) or with a nil [Translator].  A method of a nil pointer
    runs until it touches a field; then it panics.  Which fields a call touches,
    and in which order, is taken from the programs of HandleConcModel.v. *)
From Coq Require Import Arith.
From Verif Require Import GoStr GoMap FileModel PoModel MoModel TransModel ConcModel HandleConcModel.

Section Nil.
Context {A : Type}.
Variable fmt : bytes -> list A -> bytes.
Variable norm : bytes -> bytes.
Notation state := (@state A).
Implicit Types s : state.

(** ** nil [*Translations].  Handles are numbers; [z] is the number that stands
    for nil: the fields it has in the state are never looked at. *)
Variable z : nat.
(* the fields of translations.go:18-24 of a nil pointer *)
Definition of_nil (p : place) : bool :=
  match p with
  | PLocale h | PDomain h | PDomains h | PSource h => h =? z
  | _ => false
  end.
(** a call up to its end; [None]: the panic of a nil pointer, which the caller
    may recover from with the state as it is then *)
(* no counterpart in /repo: what the Go run time does with an access of translations.go:27-256 *)
Fixpoint exec {R} s (p : @gprog A R) : state * option R :=
  match p with
  | GRet r => (s, Some r)
  | Rd x k => if of_nil x then (s, None) else exec s (k (get s x))
  | Wr x f k => if of_nil x then (s, None) else exec (put s x (f (get s x))) k
  | NewTs r k => let (h, s) := new_ts s r in exec s (k h)
  | NewMap g k => let (m, s) := new_map s g in exec s (k m)
  | Load domain wm wp k =>
      let (t, s) := new_translation s domain in
      let (loaded, s) := load_fs norm s t wm wp in
      exec s (k (if loaded then Some t else None))
  end.

(** the calls: those of HandleConcModel.v, SetGlobal (init.go:15-17), Get and
    GetOrNoop (translations.go:176-188) and LoadFS of package t (init.go:20-27) *)
Inductive ncall :=
| NCall (q : @rcall A) | NSetGlobal (h : href) | NGet (h : href) (domain : bytes) | NGetOrNoop (h : href) (domain : bytes)
| NLoad (wm wp : list event).
(** what they return: an answer of HandleConcModel.v, or a translation *)
(* the results of translations.go:54-256 and init.go:15-27 *)
Inductive nans := NA (a : ans) | NTr (t : option nat).
(* one call, by a caller with the handles [own]: the code of the constructors above *)
Definition run_ncall (own : list nat) (q : ncall) : @gprog A (nans * list nat) :=
  match q with
  | NCall q => run_rcall fmt norm own q (fun a own => GRet (NA a, own))
  | NSetGlobal h => with_ref own h (fun a => Wr PGlobal (fun _ => a) (GRet (NA ANone, own)))
  | NGet h dom => with_ref own h (fun a => get_c a dom (fun o => GRet (NTr o, own)))
  | NGetOrNoop h dom => with_ref own h (fun a => get_c a dom (fun o => GRet (NTr (Some (match o with Some t => t | None => tr_noop end)), own)))
  | NLoad wm wp =>
      Rd PGlobal (fun a => Rd (PDomain a) (fun dom => Rd PGlobal (fun b => bind_c b dom wm wp (GRet (NA ANone, own)))))
  end.
(** calls one after the other; the caller recovers from the panics *)
(* no counterpart in /repo: a caller of translations.go, init.go, context.go and http.go *)
Fixpoint run_ncalls s (own : list nat) (qs : list ncall) : state * list (option nans) :=
  match qs with
  | [] => (s, [])
  | q :: qs =>
      match exec s (run_ncall own q) with
      | (s, None) => let (s, l) := run_ncalls s own qs in (s, None :: l)
      | (s, Some (a, own)) => let (s, l) := run_ncalls s own qs in (s, Some a :: l)
      end
  end.

(** ** nil [*Translation] and nil [Translator] *)
(** the result of a call, or the panic; with the state then *)
(* the results of translaton.go:37-130 *)
Inductive nres (X : Type) := NOk (x : X) (s : state) | NPanic (s : state).
Arguments NOk {X}. Arguments NPanic {X}.
(** translaton.go:37-49; a nil translator, an interface or a pointer to a file,
    panics in [Lang] (translator/file.go:29, 94-101) *)
Definition add_n s (t : option nat) (x : option (@tor A)) : nres (option (@tor A)) :=
  match x with
  | None => NPanic s
  | Some x =>
      let (lang, s) := tor_lang s x in
      match lang with
      | [] => NOk None s
      | _ =>
          match t with
          | None => NPanic s
          | Some t =>
              let lang := norm lang in
              let r := the_tr s t in
              NOk (mget lang (tr_langs r)) (set_tr s t {| tr_domain := tr_domain r; tr_langs := mput lang x (tr_langs r) |})
          end
      end
  end.
(** translaton.go:52-64 *)
Definition get_n s (t : option nat) (lang : bytes) : nres (option (@tor A)) :=
  match t with None => NPanic s | Some t => NOk (tr_get (the_tr s t) lang) s end.
(* translaton.go:59-64 *)
Definition get_or_noop_n s (t : option nat) (lang : bytes) : nres (@tor A) :=
  match t with None => NPanic s | Some t => NOk (tr_get_or_noop (the_tr s t) lang) s end.
(** translaton.go:113-130; [true] is a nil error *)
Definition added (r : nres (option (@tor A))) : nres bool :=
  match r with NOk _ s => NOk true s | NPanic s => NPanic s end.
(* translaton.go:113-120 *)
Definition load_po_n s (t : option nat) (content : bytes) : nres bool :=
  match read_po content with
  | PoOk f => let (a, s) := new_f s f in added (add_n s t (Some (TFile a)))
  | _ => NOk false s
  end.
(* translaton.go:123-130 *)
Definition load_mo_n s (t : option nat) (content : bytes) : nres bool :=
  match read_mo content with
  | MoOk f => let (a, s) := new_f s f in added (add_n s t (Some (TFile a)))
  | _ => NOk false s
  end.
(** translaton.go:94-110 *)
Definition load_file_n s (t : option nat) (f : fsfile) : nres bool :=
  match ff_name f with
  | None => NOk false s
  | Some name =>
      match ff_content f with
      | None => NOk false s
      | Some content =>
          if has_suffix ext_po name then load_po_n s t content
          else if has_suffix ext_mo name then load_mo_n s t content
          else NOk true s
      end
  end.
(** translaton.go:67-91, one walk; [fs.WalkDir] does not recover from a panic of
    the callback *)
Fixpoint walk_n (ext : bytes) s (t : option nat) (loaded : bool) (w : list event) : nres bool :=
  match w with
  | [] => NOk loaded s
  | EErr :: _ => NOk loaded s
  | EEntry dir name opened :: r =>
      if negb dir && has_suffix ext name then
        match opened with
        | None => walk_n ext s t loaded r
        | Some f =>
            match load_file_n s t f with
            | NOk ok s => walk_n ext s t (loaded || ok) r
            | NPanic s => NPanic s
            end
        end
      else walk_n ext s t loaded r
  end.
(** translaton.go:67-91 *)
Definition load_fs_n s (t : option nat) (wm wp : list event) : nres bool :=
  match walk_n ext_mo s t false wm with
  | NOk loaded s => walk_n ext_po s t loaded wp
  | NPanic s => NPanic s
  end.
End Nil.
Arguments NOk {A X}. Arguments NPanic {A X}.
Arguments NCall {A}. Arguments NSetGlobal {A}. Arguments NGet {A}. Arguments NGetOrNoop {A}. Arguments NLoad {A}.
