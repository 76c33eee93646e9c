(** Catalogs whose entries are behind pointers: translator/file.go keeps the [*Entry] it is
    given ([AddEntry]) and hands it out again ([SortedEntry]), so that a program can change an
    entry that is in a catalog, or in several.  FileModel has the same functions on values. *)
From Coq Require Import Permutation.
From Verif Require Import GoStr GoMap FileModel PoModel MoModel.
Local Open Scope Z_scope.

(** ** The heap *)
(** the entries of the program; an address is a position *)
(* translator/entry.go:10-18, behind the pointers of file.go:23 *)
Definition heap := list entry.
(* reading through an *Entry; the default is never reached (EntryFacts) *)
Definition deref (hp : heap) (a : nat) : entry := nth a hp zero_entry.
(** assigning through a pointer *)
(* file.go:82-123 assign through a *File, a program through an *Entry *)
Fixpoint put_at {X} (n : nat) (x : X) (l : list X) : list X :=
  match l, n with
  | [], _ => []
  | _ :: r, O => x :: r
  | y :: r, S n' => y :: put_at n' x r
  end.
(** file.go:22-26 *)
Record pfile := { q_entries : gmap nat; q_headers : option (gmap bytes); q_rule : option plural }.
(* new(File), a nil map behaves as an empty one when read *)
Definition new_pfile : pfile := {| q_entries := []; q_headers := None; q_rule := None |}.

(** ** The methods of *File *)
Section Methods.
Context {A : Type}.
Variable fmt : bytes -> list A -> bytes.
Variable hp : heap.
(** file.go:100-123 *)
Definition p_init_header (f : pfile) : pfile :=
  match q_headers f with
  | Some _ => f
  | None =>
      let h := match mget (key [] []) (q_entries f) with
               | Some a => parse_headers (e_str (deref hp a))
               | None => []
               end in
      {| q_entries := q_entries f; q_headers := Some h; q_rule := q_rule f |}
  end.
(** file.go:94-98 *)
Definition p_get_header (k : bytes) (f : pfile) : option bytes * pfile :=
  let f' := p_init_header f in
  (match q_headers f' with Some h => mget k h | None => None end, f').
(** file.go:130-135 *)
Definition p_init_plural (f : pfile) : pfile :=
  match q_rule f with
  | Some _ => f
  | None =>
      let (forms, f') := p_get_header H_plural_forms f in
      {| q_entries := q_entries f'; q_headers := q_headers f'; q_rule := Some (parse_plural (or_empty forms)) |}
  end.
(** file.go:82-91 *)
Definition p_add (f : pfile) (a : nat) : pfile :=
  let f1 := {| q_entries := mput (e_key (deref hp a)) a (q_entries f); q_headers := q_headers f; q_rule := q_rule f |} in
  if is_header (deref hp a) then p_init_plural (p_init_header f1) else f1.
(** file.go:29-32 *)
Definition p_lang (f : pfile) : bytes * pfile :=
  let (v, f') := p_get_header H_language f in (or_empty v, f').
(** file.go:35-41 *)
Definition p_x (f : pfile) (ctxt id : bytes) (args : list A) : bytes :=
  match mget (key ctxt id) (q_entries f) with
  | None => fmt id args
  | Some a => if is_empty (e_str (deref hp a)) then fmt id args else fmt (e_str (deref hp a)) args
  end.
(** file.go:44-66 *)
Definition p_xn64 (f : pfile) (ctxt id id2 : bytes) (n : Z) (args : list A) : xres * pfile :=
  match mget (key ctxt id) (q_entries f) with
  | None => (XStr (default_plural fmt id id2 n args), f)
  | Some a =>
      let e := deref hp a in
      if is_empty (e_id2 e) && match e_strn e with [] => true | _ => false end then
        (XStr (if negb (is_empty (e_str e)) then fmt (e_str e) args else fmt id args), f)
      else
        let f' := p_init_plural f in
        match q_rule f' with
        | None => (XPanic, f')
        | Some p =>
            if p_total p <=? 0 then (XStr (default_plural fmt id id2 n args), f')
            else
              let index := plural_fn p n in
              if (index <? 0) || (index >=? p_total p) || (index >? Z.of_nat (length (e_strn e)))
              then (XStr (default_plural fmt id id2 n args), f')
              else
                match nth_error (e_strn e) (Z.to_nat index) with
                | None => (XPanic, f')
                | Some s =>
                    if is_empty s then (XStr (default_plural fmt id id2 n args), f')
                    else (XStr (fmt s args), f')
                end
        end
  end.
(** file.go:69-79: the pointers handed out *)
Fixpoint p_ordered (l : list nat) : Prop :=
  match l with
  | [] => True
  | a :: r => (forall b, In b r -> bltb (sort_key (deref hp b)) (sort_key (deref hp a)) = false) /\ p_ordered r
  end.
(* file.go:69-79 *)
Definition p_sorted (f : pfile) (l : list nat) : Prop := Permutation l (vals (q_entries f)) /\ p_ordered l.
(** po.go:49-73, pot.go:25-52 and mo.go:214-278 *)
Definition p_saves_po (isp : N -> bool) (f : pfile) (out : bytes) : Prop :=
  exists l, p_sorted f l /\ out = concat (map (fun a => po_entry isp (deref hp a)) l).
(* pot.go:25-52 *)
Definition p_saves_pot (isp : N -> bool) (f : pfile) (out : bytes) : Prop :=
  exists l, p_sorted f l /\ out = concat (map (fun a => pot_entry isp (deref hp a)) l).
(* mo.go:214-278 *)
Definition p_saves_mo (f : pfile) (out : bytes) : Prop :=
  exists l, p_sorted f l /\ out = mo_bytes (map (deref hp) l).
End Methods.

(** ** Programs *)
(** what a program can do with entries and catalogs.  [PSet]: it assigns to the fields of an
    entry it has a pointer to; the new contents are any. *)
(* the exported functions and fields of entry.go, file.go, po.go, pot.go and mo.go *)
Inductive pop (A : Type) :=
| PNew (e : entry)
| PSet (a : nat) (e : entry)
| PFile
| PReadPo (content : bytes)
| PReadPot (content : bytes)
| PReadMo (content : bytes)
| PAdd (f a : nat)
| PHeader (f : nat) (k : bytes)
| PLang (f : nat)
| PX (f : nat) (c i : bytes) (args : list A)
| PXn (f : nat) (c i i2 : bytes) (n : Z) (args : list A).
Arguments PNew {A}. Arguments PSet {A}. Arguments PFile {A}. Arguments PReadPo {A}. Arguments PReadPot {A}. Arguments PReadMo {A}.
Arguments PAdd {A}. Arguments PHeader {A}. Arguments PLang {A}. Arguments PX {A}. Arguments PXn {A}.
(* the memory: every *Entry (entry.go:10-18) and *File (file.go:22-26) of a program *)
Record pstore := { st_heap : heap; st_files : list pfile }.
(* a program starts without entries and catalogs *)
Definition no_store : pstore := {| st_heap := []; st_files := [] |}.
(* a *File of the program, file.go:22-26 *)
Definition the_pfile (s : pstore) (f : nat) : pfile := nth f (st_files s) new_pfile.
(* file.go:82-135 assign to the fields of the receiver *)
Definition set_pfile (s : pstore) (f : nat) (x : pfile) : pstore :=
  {| st_heap := st_heap s; st_files := put_at f x (st_files s) |}.
(** the addresses of new entries, one for each key *)
Fixpoint number {V} (n : nat) (m : gmap V) : gmap nat :=
  match m with [] => [] | (k, _) :: r => (k, n) :: number (S n) r end.
(** a catalog that was read: its entries are new (po.go:96, mo.go:178) *)
Definition store_read (s : pstore) (g : file) : pstore :=
  {| st_heap := st_heap s ++ vals (f_entries g);
     st_files := st_files s ++ [{| q_entries := number (length (st_heap s)) (f_entries g); q_headers := f_headers g; q_rule := f_plural g |}] |}.
Section Step.
Context {A : Type}.
Variable fmt : bytes -> list A -> bytes.
(** one call; nothing happens on a pointer the program does not have *)
(* file.go:29-135, po.go:18-24, mo.go:92 *)
Definition pstep (s : pstore) (o : pop A) : pstore :=
  match o with
  | PNew e => {| st_heap := st_heap s ++ [e]; st_files := st_files s |}
  | PSet a e => {| st_heap := put_at a e (st_heap s); st_files := st_files s |}
  | PFile => {| st_heap := st_heap s; st_files := st_files s ++ [new_pfile] |}
  | PReadPo content => match read_po content with PoOk g => store_read s g | _ => s end
  | PReadPot content => match read_pot content with PoOk g => store_read s g | _ => s end
  | PReadMo content => match read_mo content with MoOk g => store_read s g | _ => s end
  | PAdd f a => if (a <? length (st_heap s))%nat then set_pfile s f (p_add (st_heap s) (the_pfile s f) a) else s
  | PHeader f k => set_pfile s f (snd (p_get_header (st_heap s) k (the_pfile s f)))
  | PLang f => set_pfile s f (snd (p_lang (st_heap s) (the_pfile s f)))
  | PX _ _ _ _ => s
  | PXn f c i i2 n args => set_pfile s f (snd (p_xn64 fmt (st_heap s) (the_pfile s f) c i i2 n args))
  end.
(* a program: any sequence of the calls above *)
Definition pruns (os : list (pop A)) (s : pstore) : pstore := fold_left pstep os s.
End Step.
