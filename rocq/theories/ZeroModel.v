(** Zero values and copies: programs that also declare [Translations{}] and [Translation{}],
    whose maps are nil, and copy handles by value ([b := *a], [*b = *a]), which shares the map.
    In Go a nil map is read as an empty one, deleting from it does nothing, and an assignment to
    an entry of it panics.  Everything else is TransModel. *)
From Verif Require Import GoStr GoMap FileModel PoModel MoModel TransModel.

Section Zero.
Context {A : Type}.
Variable fmt : bytes -> list A -> bytes.
Variable norm : bytes -> bytes.
Notation state := (@state A).

(** a nil map is an address in [z_maps] (of a handle) or a translation in [z_trs]; what is read
    there is empty (ZeroFacts) *)
(* the fields of translations.go:18-24 and translaton.go:22-25 *)
Record zstate := { z_state : state; z_maps : list nat; z_trs : list nat }.

(** ** The calls that assign to a nil map; [true]: the call panics *)
(** AddOrReplace: translaton.go:37-49 *)
Definition nil_add (s : state) (x : tor) : bool * state :=
  let (lang, s) := tor_lang s x in (negb (is_empty lang), s).
(** LoadPo and LoadMo: 113-130 *)
Definition nil_po (s : state) (content : bytes) : bool * state :=
  match read_po content with PoOk f => let (a, s) := new_f s f in nil_add s (TFile a) | _ => (false, s) end.
(* translaton.go:123-130 *)
Definition nil_mo (s : state) (content : bytes) : bool * state :=
  match read_mo content with MoOk f => let (a, s) := new_f s f in nil_add s (TFile a) | _ => (false, s) end.
(** LoadFile: 94-110 *)
Definition nil_file (s : state) (f : fsfile) : bool * state :=
  match ff_name f, ff_content f with
  | Some name, Some content =>
      if has_suffix ext_po name then nil_po s content
      else if has_suffix ext_mo name then nil_mo s content
      else (false, s)
  | _, _ => (false, s)
  end.
(** LoadFS: 67-91; a panic leaves the walk *)
Fixpoint nil_walk (ext : bytes) (s : state) (w : list event) : bool * state :=
  match w with
  | [] | EErr :: _ => (false, s)
  | EEntry dir name opened :: r =>
      if negb dir && has_suffix ext name then
        match opened with
        | None => nil_walk ext s r
        | Some f => let (p, s) := nil_file s f in if p then (true, s) else nil_walk ext s r
        end
      else nil_walk ext s r
  end.
(* translaton.go:67-91 *)
Definition nil_fs (s : state) (wm wp : list event) : bool * state :=
  let (p, s) := nil_walk ext_mo s wm in if p then (true, s) else nil_walk ext_po s wp.
(** BindFS: translations.go:54-59, which fills a translation of its own first *)
Definition nil_bind (s : state) (domain : bytes) (wm wp : list event) : bool * state :=
  let (t, s) := new_translation s domain in load_fs norm s t wm wp.

(** ** Programs *)
(* Go's composite literals, copies and assignments of the exported types of translations.go:18 and translaton.go:22 *)
Inductive zop :=
| ZCall (o : @op A)
| ZZero                     (* new(Translations) *)
| ZCopy (h : nat)           (* c := *h, and then &c *)
| ZAssign (h src : nat)     (* *h = *src *)
| ZZeroTr.                  (* new(Translation) *)
Definition memn (n : nat) (l : list nat) : bool := existsb (Nat.eqb n) l.
(* the calls, copies and assignments of zop *)
Definition zstep (z : zstate) (o : zop) : bool * zstate :=
  let s := z_state z in
  let on (r : bool * state) := (fst r, {| z_state := snd r; z_maps := z_maps z; z_trs := z_trs z |}) in
  match o with
  | ZCall (OBind h d wm wp as o) =>
      if memn (t_map (the_ts s h)) (z_maps z) then on (nil_bind s d wm wp) else on (false, do_op fmt norm s o)
  | ZCall (OAdd t x as o) => if memn t (z_trs z) then on (nil_add s x) else on (false, do_op fmt norm s o)
  | ZCall (OLoadPo t c as o) => if memn t (z_trs z) then on (nil_po s c) else on (false, do_op fmt norm s o)
  | ZCall (OLoadMo t c as o) => if memn t (z_trs z) then on (nil_mo s c) else on (false, do_op fmt norm s o)
  | ZCall (OLoadFS t wm wp as o) => if memn t (z_trs z) then on (nil_fs s wm wp) else on (false, do_op fmt norm s o)
  | ZCall o => on (false, do_op fmt norm s o)
  | ZZero =>
      let (m, s) := new_map s [] in
      (false, {| z_state := snd (new_ts s {| t_locale := []; t_domain := []; t_map := m; t_source := [] |});
                 z_maps := m :: z_maps z; z_trs := z_trs z |})
  | ZCopy h => on (false, snd (new_ts s (the_ts s h)))
  | ZAssign h src => on (false, set_ts s h (the_ts s src))
  | ZZeroTr => let (t, s) := new_translation s [] in (false, {| z_state := s; z_maps := z_maps z; z_trs := t :: z_trs z |})
  end.
(** a call with addresses the program has *)
(* no counterpart in /repo: the argument exists *)
Definition zknown (z : zstate) (o : zop) : Prop :=
  match o with
  | ZCall o => known (z_state z) o
  | ZCopy h => h < length (s_ts (z_state z))
  | ZAssign h src => h < length (s_ts (z_state z)) /\ src < length (s_ts (z_state z))
  | _ => True
  end.
(* init.go:7: the program starts; a panic is recovered by the caller *)
Definition zinit (d : bytes) : zstate := {| z_state := init d; z_maps := []; z_trs := [] |}.
(* a program: any sequence of the calls above *)
Definition zrun (d : bytes) (os : list zop) : zstate := fold_left (fun z o => snd (zstep z o)) os (zinit d).
End Zero.
Arguments ZCall {A}. Arguments ZZero {A}. Arguments ZCopy {A}. Arguments ZAssign {A}. Arguments ZZeroTr {A}.
