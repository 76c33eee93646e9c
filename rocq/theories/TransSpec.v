(** Specifications for package t. *)
From Coq Require Import Permutation.
From Verif Require Import GoStr GoMap FileModel PoModel MoModel TransModel.

(** *** what can be seen through a handle *)
Section View.
Context {A : Type}.
Variable fmt : bytes -> list A -> bytes.
Variable norm : bytes -> bytes.
Notation state := (@state A).
(** handle [h] in state [s] and handle [h'] in state [s'] translate alike *)
Definition same_answers (s : state) (h : nat) (s' : state) (h' : nat) : Prop :=
  used_locale s h = used_locale s' h'
  /\ (forall out, locales norm s h out <-> locales norm s' h' out)
  /\ (forall c i args, h_x fmt s h c i args = h_x fmt s' h' c i args)
  /\ (forall c i i2 n args, fst (h_xn64 fmt s h c i i2 n args) = fst (h_xn64 fmt s' h' c i i2 n args)).
(** they agree in everything *)
Definition same_at (s : state) (h : nat) (s' : state) (h' : nat) : Prop :=
  h_locale s h = h_locale s' h' /\ h_domain s h = h_domain s' h' /\ h_source s h = h_source s' h'
  /\ (forall d, has_domain s h d = has_domain s' h' d) /\ same_answers s h s' h'.
(** the handle with another current domain and locale *)
Definition retarget (s : state) (h : nat) (d l : bytes) : state :=
  set_ts s h {| t_locale := l; t_domain := d; t_map := t_map (the_ts s h); t_source := t_source (the_ts s h) |}.
(** they agree now and would agree for every other domain and locale *)
Definition same_view (s : state) (h : nat) (s' : state) (h' : nat) : Prop :=
  same_at s h s' h' /\ forall d l, same_at (retarget s h d l) h (retarget s' h' d l) h'.
(** the handle answers with the source texts *)
Definition english (i i2 : bytes) (n : Z) : bytes :=
  if (n =? 1)%Z then i else match i2 with [] => i | _ => i2 end.
Definition source_text (s : state) (h : nat) : Prop :=
  (forall c i args, h_x fmt s h c i args = fmt i args)
  /\ (forall c i i2 n args, fst (h_xn64 fmt s h c i i2 n args) = XStr (fmt (english i i2 n) args)).
(** the handle answers from a catalog *)
Definition answers_from (s : state) (h : nat) (f : file) : Prop :=
  (forall c i args, h_x fmt s h c i args = f_x fmt f c i args)
  /\ (forall c i i2 n args, fst (h_xn64 fmt s h c i i2 n args) = fst (f_xn64 fmt f c i i2 n args)).
(** the handle answers from the translator [x] (for a file: as it is now) *)
Definition answers_tor (s : state) (h : nat) (x : @tor A) : Prop :=
  match x with
  | TNoop => source_text s h
  | TFile a => answers_from s h (the_file s a)
  | TUser u => (forall c i args, h_x fmt s h c i args = u_x u c i args)
               /\ (forall c i i2 n args, fst (h_xn64 fmt s h c i i2 n args) = XStr (u_xn u c i i2 n args))
  end.

(** calls that do not reach into shared translations or files, and the handle
    they are meant to change *)
Definition on_handle (o : @op A) : option nat :=
  match o with
  | OSetDomain h _ | OSetLocale h _ _ | OSetSource h _ | OBind h _ _ _ | ORemove h _ | OClear h => Some h
  | _ => None
  end.
Definition direct (o : @op A) : Prop :=
  match o with OAdd _ _ | OLoadPo _ _ | OLoadMo _ _ | OLoadFS _ _ _ | OAddEntry _ _ => True | _ => False end.
(** calls that reach into the translation [GetOrNoop] returns for a missing
    domain *)
Definition spoils_noop (o : @op A) : Prop :=
  match o with
  | OAdd t _ | OLoadPo t _ | OLoadMo t _ | OLoadFS t _ _ => t = tr_noop
  | _ => False
  end.
(** programs that never do *)
Inductive reach_clean : state -> Prop :=
| RC_init d : reach_clean (init d)
| RC_step s o : reach_clean s -> known s o -> ~ spoils_noop o -> reach_clean (do_op fmt norm s o).
(** runs of calls *)
Inductive steps (P : state -> @op A -> Prop) : state -> state -> Prop :=
| St_refl s : steps P s s
| St_step s o s' : known s o -> P s o -> steps P (do_op fmt norm s o) s' -> steps P s s'.
(** calls on other handles than [h] *)
Definition elsewhere (h : nat) (_ : state) (o : @op A) : Prop := ~ direct o /\ on_handle o <> Some h.
End View.

(** *** loading *)
(** what [LoadFile] makes of an opened file: [None] is an error, [Some None] no
    catalog and no error *)
Definition gives (x : fsfile) : option (option file) :=
  match ff_name x, ff_content x with
  | Some n, Some c =>
      if has_suffix (B ".po") n then match read_po c with PoOk f => Some (Some f) | _ => None end
      else if has_suffix (B ".mo") n then match read_mo c with MoOk f => Some (Some f) | _ => None end
      else Some None
  | _, _ => None
  end.
(** the files with the extension before the first error of the walk *)
Fixpoint hits (ext : bytes) (w : list event) : list fsfile :=
  match w with
  | EEntry false name (Some x) :: r => if has_suffix ext name then x :: hits ext r else hits ext r
  | EEntry _ _ _ :: r => hits ext r
  | EErr :: _ | [] => []
  end.
Definition catalogs (ext : bytes) (w : list event) : list file :=
  flat_map (fun x => match gives x with Some (Some f) => [f] | _ => [] end) (hits ext w).
(** some file was loaded without error *)
Definition some_loaded (ext : bytes) (w : list event) : Prop := exists x, In x (hits ext w) /\ gives x <> None.
(** the files are called what the directory says *)
Definition honest (w : list event) : Prop :=
  forall dir name x, In (EEntry dir name (Some x)) w -> ff_name x = Some name.
(** the last element with a property *)
Definition last_of {X} (P : X -> Prop) (l : list X) (x : X) : Prop :=
  exists a b, l = a ++ x :: b /\ P x /\ forall y, In y b -> ~ P y.
(** files that answer alike: the lazily computed parts may or may not be there *)
Definition same_file (f f' : file) : Prop :=
  f_entries f = f_entries f' /\ f_headers (init_header f) = f_headers (init_header f')
  /\ f_plural (init_plural f) = f_plural (init_plural f').

(** the readable catalogs with an extension, in walk order *)
Fixpoint readable (ext : bytes) (rd : bytes -> option file) (w : list event) : list file :=
  match w with
  | EEntry false name (Some {| ff_content := Some c |}) :: r =>
      if has_suffix ext name then match rd c with Some f => f :: readable ext rd r | None => readable ext rd r end
      else readable ext rd r
  | EEntry _ _ _ :: r => readable ext rd r
  | EErr :: _ | [] => []
  end.
Definition as_po (c : bytes) : option file := match read_po c with PoOk f => Some f | _ => None end.
Definition as_mo (c : bytes) : option file := match read_mo c with MoOk f => Some f | _ => None end.
Section Langs.
Variable norm : bytes -> bytes.
(** the language a translator names *)
Definition language_of {A} (s : @state A) (x : @tor A) : bytes :=
  match x with TNoop => [] | TFile a => fst (lang (the_file s a)) | TUser u => u_lang u end.
(** a catalog of language [l] *)
Definition speaks (l : bytes) (f : file) : Prop := fst (lang f) <> [] /\ norm (fst (lang f)) = l.
(** the catalog of language [l] among those of the .mo files and those of the
    .po files *)
Definition wins (l : bytes) (mos pos : list file) (f : file) : Prop :=
  last_of (speaks l) pos f \/ (forall g, In g pos -> ~ speaks l g) /\ last_of (speaks l) mos f.
Definition nobody (l : bytes) (mos pos : list file) : Prop := forall g, In g (mos ++ pos) -> ~ speaks l g.
(** calls that put a translator for language [l] into translation [t] *)
Definition puts {A} (t : nat) (l : bytes) (s : @state A) (o : @op A) : Prop :=
  match o with
  | OAdd t' x => t' = t /\ language_of s x <> [] /\ norm (language_of s x) = l
  | OLoadPo t' c => t' = t /\ exists f, as_po c = Some f /\ speaks l f
  | OLoadMo t' c => t' = t /\ exists f, as_mo c = Some f /\ speaks l f
  | OLoadFS t' wm wp => t' = t /\ exists f, In f (catalogs (B ".mo") wm ++ catalogs (B ".po") wp) /\ speaks l f
  | _ => False
  end.
End Langs.
(** a list in strictly increasing order *)
Fixpoint increasing (l : list bytes) : Prop :=
  match l with
  | [] => True
  | x :: r => (forall y, In y r -> bltb x y = true) /\ increasing r
  end.
(** the values in a context, newest first *)
Fixpoint settings (c : ctx) : list (ckey * cval) :=
  match c with CBackground => [] | CValue c' k v => (k, v) :: settings c' | CWrap c' => settings c' end.
(** only strings are stored under the two private keys *)
Definition private (c : ctx) : Prop :=
  forall k v, In (k, v) (settings c) -> k = KLang \/ k = KDomain -> exists s, v = VString s.
(** the most recently set string under a key, if any *)
Definition most_recent (c : ctx) (k : ckey) (o : option bytes) : Prop :=
  match o with
  | Some s => exists a b, settings c = a ++ (k, VString s) :: b /\ forall v, ~ In (k, v) a
  | None => forall v, ~ In (k, v) (settings c)
  end.
