(** Contexts of any kind and nil requests: /repo/context.go with a nil context, contexts of other packages
    whose [Value] may give anything or panic, and /repo/http.go with a nil request or a nil option. *)
From Verif Require Import GoStr GoMap FileModel PoModel MoModel TransModel.

Section Ctx.
Context {A : Type}.
Variable norm : bytes -> bytes.
Notation state := (@state A).

(** what [ctx.Value] gives: a value, nil, or a panic *)
(* called at context.go:24, 30 *)
Inductive told := TValue (v : cval) | TNil | TPanic.
(** a context: nil; one of another package, given by its answers; one made by [context.WithValue]; or one
    that passes [Value] on (WithCancel and the like, or a struct with an embedded context) *)
(* context.Context, used at context.go:15-44 *)
Inductive xctx := XNil | XForeign (value : ckey -> told) | XValue (c : xctx) (k : ckey) (v : cval) | XWrap (c : xctx).
(* ctx.Value, called at context.go:24, 30: a method of a nil interface panics *)
Fixpoint xvalue (c : xctx) (k : ckey) : told :=
  match c with
  | XNil => TPanic
  | XForeign f => f k
  | XValue c' k' v => if ckey_eqb k k' then TValue v else xvalue c' k
  | XWrap c' => xvalue c' k
  end.
(** [None]: a panic *)
(* context.WithValue, called at context.go:16, 20: panics for a nil parent *)
Definition with_value (c : xctx) (k : ckey) (v : cval) : option xctx :=
  match c with XNil => None | _ => Some (XValue c k v) end.
(* context.go:15-17 *)
Definition set_locale_x (c : xctx) (l : bytes) : option xctx := with_value c KLang (VString l).
(* context.go:19-21 *)
Definition set_domain_x (c : xctx) (d : bytes) : option xctx := with_value c KDomain (VString d).
(** the type assertion [v.(string)] with [ok]; the outer [None]: a panic *)
(* context.go:25, 31 *)
Definition string_of (r : told) : option (option bytes) :=
  match r with TPanic => None | TNil => Some None | TValue (VString s) => Some (Some s) | TValue (VOther _) => Some None end.
(* context.go:23-27 *)
Definition get_locale_x (c : xctx) : option (option bytes) := string_of (xvalue c KLang).
(* context.go:29-33 *)
Definition get_domain_x (c : xctx) : option (option bytes) := string_of (xvalue c KDomain).
(** the handle ([None]: a panic) and the state *)
(* context.go:35-44 *)
Definition with_context_x (s : state) (c : xctx) (d : bytes) : option nat * state :=
  let (h, s) := g_clone s in
  match get_locale_x c with
  | None => (None, s)
  | Some lo =>
      let (h, s) := match lo with Some l => h_L norm s h l d | None => (h, s) end in
      match get_domain_x c with
      | None => (None, s)
      | Some dom => let (h, s) := match dom with Some dom => h_D s h dom | None => (h, s) end in (Some h, s)
      end
  end.

(** ** Requests *)
(* *http.Request, used at http.go:20-39 *)
Record request := { r_cookie : bytes -> option bytes; r_accept : bytes }.
(* the result of http.go:20 *)
Inductive lang_res := LangOk (l : bytes) | LangPanic.
(* http.go:14-16, 21-24: the options change the name in turn; calling a nil option panics *)
Fixpoint cookie_name (name : bytes) (opts : list (option bytes)) : option bytes :=
  match opts with [] => Some name | None :: _ => None | Some n :: r => cookie_name n r end.
Variable mtch_http : list bytes -> bytes -> nat.
(* http.go:20-39.  A nil request panics in [Cookie], or, where that does not look at it, at its Header (36) *)
Definition user_lang_x (s : state) (req : option request) (opts : list (option bytes)) (out : lang_res) : Prop :=
  match cookie_name (B "lang") opts with
  | None => out = LangPanic
  | Some name =>
      match req with
      | None => out = LangPanic
      | Some r =>
          match r_cookie r name with
          | Some v => out = LangOk v
          | None => exists langs, locales norm s (s_global s) langs
              /\ out = match nth_error langs (mtch_http langs (r_accept r)) with Some l => LangOk l | None => LangPanic end
          end
      end
  end.
End Ctx.
