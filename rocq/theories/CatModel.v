(** Catalogs that are copied by value ([g := *f], [*g = *f]) and nil catalogs and entries: a
    [File] has its entries in a map that a copy shares, once there is one; its header fields and
    its plural rule are not changed any more once they are set (translator/file.go:100-135), so
    copies of them are copies of their values.  The entries are values here; EntryModel has the
    pointers. *)
From Verif Require Import GoStr GoMap FileModel FileSpec PoModel MoModel EntryModel.
Local Open Scope nat_scope.

(** file.go:22-26; the map is an address, [None] is the nil map *)
Record cfile := { c_map : option nat; c_headers : option (gmap bytes); c_rule : option plural }.
(** the maps and the catalogs of a program *)
(* file.go:22-26 *)
Record cstore := { cs_maps : list (gmap entry); cs_files : list cfile }.
(* a program starts without catalogs *)
Definition no_cats : cstore := {| cs_maps := []; cs_files := [] |}.
(* new(File): the zero value of file.go:22-26 *)
Definition zero_cat : cfile := {| c_map := None; c_headers := None; c_rule := None |}.
(* a *File of the program, file.go:22-26; addresses the program has not are never used *)
Definition the_cat (s : cstore) (f : nat) : cfile := nth f (cs_files s) zero_cat.
(** what the methods of a catalog see: a nil map is read as an empty one *)
(* the fields of file.go:22-26 through a *File *)
Definition cview (s : cstore) (f : nat) : file :=
  {| f_entries := match c_map (the_cat s f) with Some m => nth m (cs_maps s) [] | None => [] end;
     f_headers := c_headers (the_cat s f); f_plural := c_rule (the_cat s f) |}.
(** assigning to the fields [headers] and [plural] *)
(* file.go:121, 133 *)
Definition set_caches (s : cstore) (f : nat) (g : file) : cstore :=
  {| cs_maps := cs_maps s;
     cs_files := put_at f {| c_map := c_map (the_cat s f); c_headers := f_headers g; c_rule := f_plural g |} (cs_files s) |}.
(** file.go:83-85 *)
Definition need_map (s : cstore) (f : nat) : cstore :=
  match c_map (the_cat s f) with
  | Some _ => s
  | None =>
      {| cs_maps := cs_maps s ++ [[]];
         cs_files := put_at f {| c_map := Some (length (cs_maps s)); c_headers := c_headers (the_cat s f); c_rule := c_rule (the_cat s f) |} (cs_files s) |}
  end.
(** file.go:86 *)
Definition put_entry (s : cstore) (f : nat) (e : entry) : cstore :=
  match c_map (the_cat s f) with
  | Some m => {| cs_maps := put_at m (mput (e_key e) e (nth m (cs_maps s) [])) (cs_maps s); cs_files := cs_files s |}
  | None => s
  end.
(** file.go:82-91 *)
Definition cat_add (s : cstore) (f : nat) (e : entry) : cstore :=
  let s := put_entry (need_map s f) f e in
  if is_header e then set_caches s f (init_plural (init_header (cview s f))) else s.
(** a catalog that was read (po.go:33-45, mo.go:154-195): a map was made if an entry was added *)
Definition cat_read (s : cstore) (g : file) : cstore :=
  match f_entries g with
  | [] => {| cs_maps := cs_maps s; cs_files := cs_files s ++ [{| c_map := None; c_headers := f_headers g; c_rule := f_plural g |}] |}
  | m => {| cs_maps := cs_maps s ++ [m];
            cs_files := cs_files s ++ [{| c_map := Some (length (cs_maps s)); c_headers := f_headers g; c_rule := f_plural g |}] |}
  end.

(** ** Programs.  Catalogs are numbered in the order in which they are made; [None] is a nil
    pointer.  [CSave]: any of SaveAsPo, SaveAsPot, SaveAsMo and SortedEntry. *)
(* the exported functions of file.go, po.go, pot.go and mo.go, and copies by value *)
Inductive cop (A : Type) :=
| CNew
| CReadPo (content : bytes) | CReadPot (content : bytes) | CReadMo (content : bytes)
| CCopy (src : option nat)
| CAssign (dst src : option nat)
| CAdd (f : option nat) (e : option entry)
| CHeader (f : option nat) (k : bytes)
| CLang (f : option nat)
| CX (f : option nat) (c i : bytes) (args : list A)
| CXn (f : option nat) (c i i2 : bytes) (n : Z) (args : list A)
| CSave (f : option nat).
Arguments CNew {A}. Arguments CReadPo {A}. Arguments CReadPot {A}. Arguments CReadMo {A}. Arguments CCopy {A}. Arguments CAssign {A}.
Arguments CAdd {A}. Arguments CHeader {A}. Arguments CLang {A}. Arguments CX {A}. Arguments CXn {A}. Arguments CSave {A}.
Section Step.
Context {A : Type}.
Variable fmt : bytes -> list A -> bytes.
(** one call; [true]: it panics because of a nil pointer, and [s] is what a recovered panic
    leaves.  AddEntry of a nil entry panics at file.go:86, behind the making of the map. *)
(* file.go:29-135, po.go:18-24, mo.go:92 *)
Definition cstep (s : cstore) (o : cop A) : bool * cstore :=
  match o with
  | CNew => (false, {| cs_maps := cs_maps s; cs_files := cs_files s ++ [zero_cat] |})
  | CReadPo content => (false, match read_po content with PoOk g => cat_read s g | _ => s end)
  | CReadPot content => (false, match read_pot content with PoOk g => cat_read s g | _ => s end)
  | CReadMo content => (false, match read_mo content with MoOk g => cat_read s g | _ => s end)
  | CCopy (Some h) => (false, {| cs_maps := cs_maps s; cs_files := cs_files s ++ [the_cat s h] |})
  | CAssign (Some f) (Some h) => (false, {| cs_maps := cs_maps s; cs_files := put_at f (the_cat s h) (cs_files s) |})
  | CAdd (Some f) (Some e) => (false, cat_add s f e)
  | CAdd (Some f) None => (true, need_map s f)
  | CHeader (Some f) k => (false, set_caches s f (snd (get_header k (cview s f))))
  | CLang (Some f) => (false, set_caches s f (snd (lang (cview s f))))
  | CX (Some f) _ _ _ => (false, s)
  | CXn (Some f) c i i2 n args => (false, set_caches s f (snd (f_xn64 fmt (cview s f) c i i2 n args)))
  | CSave (Some f) => (false, s)
  | _ => (true, s)
  end.
(** a program that recovers from panics; the latest call first *)
(* no counterpart in /repo: the callers of file.go *)
Fixpoint crun (os : list (cop A)) : cstore :=
  match os with
  | [] => no_cats
  | o :: r => snd (cstep (crun r) o)
  end.
End Step.
