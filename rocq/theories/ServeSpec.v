(** What a page is answered with: which catalog, seen before the request. *)
From Coq Require Import List.
From Verif Require Import GoStr GoMap FileModel TransModel TransSpec.
Import ListNotations.
Section Serve.
Context {A : Type}.
Variable fmt : bytes -> list A -> bytes.
Notation state := (@state A).
(** among the catalogs the handle knows for a domain, [x] is the one of a language *)
Definition offers (s : state) (h : nat) (dom l : bytes) (x : @tor A) : Prop :=
  exists t, h_get s h dom = Some t /\ tr_get (the_tr s t) l = Some x.
(** handle [h'], made later in state [s'], answers from the translator [x] as it was in [s] *)
Definition told_by (s : state) (x : @tor A) (s' : state) (h' : nat) : Prop :=
  match x with
  | TNoop => source_text fmt s' h'
  | TFile a => answers_from fmt s' h' (the_file s a)
  | TUser u => (forall c i args, h_x fmt s' h' c i args = u_x u c i args)
               /\ (forall c i i2 n args, fst (h_xn64 fmt s' h' c i i2 n args) = XStr (u_xn u c i i2 n args))
  end.
(** the page is in language [l] of the domain: from its catalog if there is one *)
Definition page_from (s : state) (h : nat) (dom l : bytes) (s' : state) (h' : nat) : Prop :=
  exists x, offers s h dom l x /\ used_locale s' h' = l /\ told_by s x s' h'.
(** the page has the texts of the source code *)
Definition page_plain (s : state) (h : nat) (s' : state) (h' : nat) : Prop :=
  used_locale s' h' = h_source s h /\ source_text fmt s' h'.
End Serve.
(** what the cookie with the configured name says; the last name given counts *)
Definition cookie_says (cookie : bytes -> option bytes) (opts : list bytes) (v : option bytes) : Prop :=
  (opts = [] /\ v = cookie (B "lang")) \/ (exists before name, opts = before ++ [name] /\ v = cookie name).
