(** Specification of catalogs and entries that a program shares by pointers: what an entry
    contains and what a catalog lists, by the history of the program. *)
From Coq Require Import List ZArith Ascii.
From Verif Require Import GoStr GoMap FileModel PoModel MoModel FileSpec EntryModel.
Import ListNotations.

Section Histories.
Context {A : Type}.
Implicit Types (os : list (pop A)) (o : pop A).
(** the catalog a call reads, if it does and succeeds *)
Definition catalog_of o : option file :=
  match o with
  | PReadPo c => match read_po c with PoOk g => Some g | _ => None end
  | PReadPot c => match read_pot c with PoOk g => Some g | _ => None end
  | PReadMo c => match read_mo c with MoOk g => Some g | _ => None end
  | _ => None
  end.
(** the entries and catalogs made by a call; the n-th entry made has the address n, and so has
    the n-th catalog *)
Definition makes o : list entry :=
  match o with PNew e => [e] | _ => match catalog_of o with Some g => map snd (f_entries g) | None => [] end end.
Definition makes_file o : list unit :=
  match o with PFile => [tt] | _ => match catalog_of o with Some _ => [tt] | None => [] end end.
Definition made os : list entry := concat (map makes os).
Definition files os : nat := length (concat (map makes_file os)).
(** the program uses the pointers it has *)
Definition uses os o : Prop :=
  match o with
  | PSet a _ => a < length (made os)
  | PAdd f a => f < files os /\ a < length (made os)
  | PHeader f _ | PLang f | PX f _ _ _ | PXn f _ _ _ _ _ => f < files os
  | _ => True
  end.
Definition proper os : Prop := forall os1 o os2, os = os1 ++ o :: os2 -> uses os1 o.

(** what entry [a] contains after a history: what it was set to last, or what it was made with *)
Definition unset os (a : nat) : Prop := forall e, ~ In (PSet a e) os.
Definition contents os (a : nat) (e : entry) : Prop :=
  (exists os1 os2, os = os1 ++ PSet a e :: os2 /\ unset os2 a)
  \/ unset os a /\ nth_error (made os) a = Some e.
(** the call adds an entry to catalog [f] that is then named [k] *)
Definition enters os o (f : nat) (k : bytes) (a : nat) : Prop :=
  o = PAdd f a /\ exists e, contents os a e /\ joined (e_ctxt e) (e_id e) = k.
(** nothing named [k] is added to [f] by the calls [os2] after [os1] *)
Definition keeps_name os1 os2 (f : nat) (k : bytes) : Prop :=
  forall u o v, os2 = u ++ o :: v -> forall a, ~ enters (os1 ++ u) o f k a.
(** catalog [f] has entry [a] under the name [k]: it was added, or read, and nothing was added
    under that name since *)
Definition lists os (f : nat) (k : bytes) (a : nat) : Prop :=
  (exists os1 os2 o, os = os1 ++ o :: os2 /\ enters os1 o f k a /\ keeps_name (os1 ++ [o]) os2 f k)
  \/ (exists os1 os2 o g i e, os = os1 ++ o :: os2 /\ catalog_of o = Some g /\ f = files os1
      /\ nth_error (f_entries g) i = Some (k, e) /\ a = length (made os1) + i
      /\ keeps_name (os1 ++ [o]) os2 f k).

(** ** A program that leaves entries alone once they are in a catalog *)
Definition settled os : Prop :=
  forall os1 a e os2, os = os1 ++ PSet a e :: os2 -> forall f k, ~ lists os1 f k a.
(** the calls of a history that concern catalog [f], with the values of the entries added, and
    the catalog it began as *)
Inductive acts (f : nat) : list (pop A) -> file -> list (fop A) -> Prop :=
| AC_new os : files os = f -> acts f (os ++ [PFile]) new_file []
| AC_read os o g : files os = f -> catalog_of o = Some g -> acts f (os ++ [o]) g []
| AC_add os g l a e : acts f os g l -> contents os a e -> acts f (os ++ [PAdd f a]) g (l ++ [OAdd e])
| AC_header os g l k : acts f os g l -> acts f (os ++ [PHeader f k]) g (l ++ [OHeader k])
| AC_lang os g l : acts f os g l -> acts f (os ++ [PLang f]) g (l ++ [OLang])
| AC_x os g l c i args : acts f os g l -> acts f (os ++ [PX f c i args]) g (l ++ [OX c i args])
| AC_xn os g l c i i2 n args : acts f os g l -> acts f (os ++ [PXn f c i i2 n args]) g (l ++ [OXn c i i2 n args])
| AC_other os g l o : acts f os g l ->
    match o with PAdd f' _ | PHeader f' _ | PLang f' | PX f' _ _ _ | PXn f' _ _ _ _ _ => f' <> f | _ => True end ->
    acts f (os ++ [o]) g l.
End Histories.
