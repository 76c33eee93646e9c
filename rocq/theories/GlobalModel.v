(** Model of the functions of package t that act on the global handle:
    /repo/gettext.go, /repo/init.go:19-105 and /repo/mark.go. *)
From Coq Require Import Permutation.
From Verif Require Import GoStr GoMap FileModel PoModel MoModel TransModel.

(** translations.go:106-111: the map is visited in any order *)
Definition domains {A} (s : @state A) (h : nat) (out : list bytes) : Prop :=
  Permutation out (keys (h_domains s h)).

Section Global.
Context {A : Type}.
Variable fmt : bytes -> list A -> bytes.
Variable norm : bytes -> bytes.
Notation state := (@state A).
Implicit Types s : state.

(** gettext.go:4-7: the new handle and the state *)
Definition g_D s (domain : bytes) : nat * state := h_D s (s_global s) domain.
(* gettext.go:7 *)
Definition g_L s (lang d : bytes) : nat * state := h_L norm s (s_global s) lang d.
(** gettext.go:10-12, 37-39 *)
Definition g_T s (i : bytes) (args : list A) : bytes := h_x fmt s (s_global s) [] i args.
(* gettext.go:37-39 *)
Definition g_X s (c i : bytes) (args : list A) : bytes := h_x fmt s (s_global s) c i args.
(** gettext.go:15-34; an [int] is an [int64] on a 64-bit platform *)
Definition g_N s (i i2 : bytes) (n : Z) (args : list A) : xres * state := h_xn64 fmt s (s_global s) [] i i2 n args.
(* gettext.go:22-24 *)
Definition g_N1 s (i : bytes) (n : Z) (args : list A) : xres * state := h_xn64 fmt s (s_global s) [] i [] n args.
(* gettext.go:27-29 *)
Definition g_N1_64 s (i : bytes) (n : Z) (args : list A) : xres * state := h_xn64 fmt s (s_global s) [] i [] n args.
(* gettext.go:32-34 *)
Definition g_N64 s (i i2 : bytes) (n : Z) (args : list A) : xres * state := h_xn64 fmt s (s_global s) [] i i2 n args.
(** gettext.go:42-59 *)
Definition g_XN s (c i i2 : bytes) (n : Z) (args : list A) : xres * state := h_xn64 fmt s (s_global s) c i i2 n args.
(* gettext.go:47-49 *)
Definition g_XN1 s (c i : bytes) (n : Z) (args : list A) : xres * state := h_xn64 fmt s (s_global s) c i [] n args.
(* gettext.go:52-54 *)
Definition g_XN64 s (c i i2 : bytes) (n : Z) (args : list A) : xres * state := h_xn64 fmt s (s_global s) c i i2 n args.
(* gettext.go:57-59 *)
Definition g_XN1_64 s (c i : bytes) (n : Z) (args : list A) : xres * state := h_xn64 fmt s (s_global s) c i [] n args.

(** init.go:88-90, 52-54, 67-69, 77-79, 83-85 *)
Definition g_domain s : bytes := h_domain s (s_global s).
(* init.go:52-54 *)
Definition g_locale s : bytes := h_locale s (s_global s).
(* init.go:67-69 *)
Definition g_source s : bytes := h_source s (s_global s).
(* init.go:77-79 *)
Definition g_used s : bytes := used_locale s (s_global s).
(* init.go:83-85 *)
Definition g_locales s (out : list bytes) : Prop := locales norm s (s_global s) out.
(** init.go:98-105 *)
Definition g_has s (domain : bytes) : bool := has_domain s (s_global s) domain.
(* init.go:103-105 *)
Definition g_domains s (out : list bytes) : Prop := domains s (s_global s) out.
(** init.go:35-37: a file system is what the two walks see, as for [bind_fs] *)
Definition g_bind s (domain : bytes) (wm wp : list event) : state := bind_fs norm s (s_global s) domain wm wp.
(** init.go:25-27 (20-22 and 30-32 with the file system of the path, FsModel.v) *)
Definition g_load s (wm wp : list event) : state := g_bind s (g_domain s) wm wp.
(** init.go:41-49 *)
Definition g_remove s (domain : bytes) : bool * state := remove_domain s (s_global s) domain.
(* init.go:47-49 *)
Definition g_clear s : state := clear_domains s (s_global s).
(** init.go:62-64, 72-74, 93-95 *)
Definition g_set_locale s (lang d : bytes) : state := set_locale norm s (s_global s) lang d.
(* init.go:72-74 *)
Definition g_set_source s (lang : bytes) : state := set_source norm s (s_global s) lang.
(* init.go:93-95 *)
Definition g_set_domain s (domain : bytes) : state := set_domain s (s_global s) domain.
End Global.

(** mark.go:10-19 *)
Definition mark_T (i : bytes) : bytes := i.
(* mark.go:11-13 *)
Definition mark_N (i i2 : bytes) : bytes * bytes := (i, i2).
(* mark.go:14-16 *)
Definition mark_X (c i : bytes) : bytes * bytes := (c, i).
(* mark.go:17-19 *)
Definition mark_XN (c i i2 : bytes) : bytes * bytes * bytes := (c, i, i2).
