(** Specification of converting catalogs between the formats: what is left of a catalog after a
    chain of conversions. *)
From Verif Require Import GoStr GoMap FileModel FileSpec PoModel PoSpec MoModel MoSpec.

Inductive form := AsPo | AsMo.
(** [g] may come out of saving [f] in the first format, reading that, saving it in the next one,
    and so on; .mo files are below 4 GB *)
Inductive converted : list form -> file -> file -> Prop :=
| cv_none f : converted [] f f
| cv_po isp f out g l h : saves_po isp f out -> read_po out = PoOk g -> converted l g h -> converted (AsPo :: l) f h
| cv_mo f out g l h : saves_mo f out -> (N.of_nat (length out) < 2 ^ 32)%N -> read_mo out = MoOk g -> converted l g h -> converted (AsMo :: l) f h.
(** both formats can express the catalog, and a translation is in it *)
Definition convertible (f : file) : Prop :=
  (forall e, In e (vals (f_entries f)) -> po_ok e /\ mo_ok e /\ (e_id e = [] -> e_ctxt e = []))
  /\ exists e, In e (vals (f_entries f)) /\ translated e.
(** what is left of an entry: .mo files have no comments *)
Definition left_of (l : list form) (e : entry) : entry := if existsb (fun x => match x with AsMo => true | AsPo => false end) l then strip e else e.
(** the text of the header entry *)
Definition heading (f : file) : bytes := match mget (joined [] []) (f_entries f) with Some e => e_str e | None => [] end.
