(** Which calls on one handle touch the same part of it. *)
From Coq Require Import List.
From Verif Require Import GoStr GoMap FileModel TransModel TransSpec HandleConcModel.
Import ListNotations.
(** what a handle consists of: its language, its current domain, the loaded
    domains, the language of the source code *)
Inductive part := Language | Current | Loaded | Source.
Section Spec.
Context {A : Type}.
Notation rcall := (@rcall A).
(** the call acts on handle [h] *)
Definition on (s : @state A) (h : nat) (q : rcall) : Prop :=
  match q with
  | QNew _ | QUserLang (Some _) => True
  | QGlobal | QWith _ _ | QMost _ | QUserLang None => s_global s = h
  | QD r _ | QL r _ _ | QSetDomain r _ | QSetLocale r _ _ | QSetSource r _ | QBind r _ _ _ | QRemove r _ | QClear r
  | QHas r _ | QDomain r | QLocale r | QSource r | QUsed r | QDomains r | QLocales r | QX r _ _ _ | QXN r _ _ _ _ _ =>
      match r with HGlob => s_global s = h | HShared a => a = h | HOwn _ => False end
  end.
(** a directory with a catalog that can be read *)
Definition loads (wm wp : list event) : Prop := some_loaded (B ".mo") wm \/ some_loaded (B ".po") wp.
(** what a call may change *)
Definition changes (q : rcall) (p : part) : Prop :=
  match q with
  | QSetLocale _ _ _ => p = Language
  | QSetDomain _ _ => p = Current
  | QSetSource _ _ => p = Source
  | QBind _ _ wm wp => p = Loaded /\ loads wm wp
  | QRemove _ d => (p = Loaded \/ p = Current) /\ d <> []
  | QClear _ => p = Loaded \/ p = Current
  | _ => False
  end.
(** what it may look at *)
Definition uses (q : rcall) (p : part) : Prop :=
  match q with
  | QD _ _ | QL _ _ _ | QGlobal | QWith _ _ | QUsed _ | QMost _ => True
  | QHas _ _ | QDomains _ => p = Loaded
  | QDomain _ => p = Current
  | QLocale _ => p = Language
  | QSource _ => p = Source
  | QLocales _ | QUserLang None => p <> Language
  | QX _ _ _ _ | QXN _ _ _ _ _ _ => p <> Source
  | QBind _ _ wm wp => p = Loaded /\ loads wm wp
  | QRemove _ d => (p = Loaded \/ p = Current) /\ d <> []
  | _ => False
  end.
(** one of them changes what the other changes or looks at *)
Definition clash (q q' : rcall) : Prop :=
  exists p, changes q p /\ (changes q' p \/ uses q' p) \/ changes q' p /\ (changes q p \/ uses q p).
(** what is changed and looked at in a given state: removing a domain changes the
    loaded ones if it is loaded, and the current one if it is that; UsedLocale
    looks at the language if the domain is loaded, and at the source language if
    there is no catalog of the language *)
Definition changes_in (s : @state A) (h : nat) (q : rcall) (p : part) : Prop :=
  changes q p
  /\ match q with
     | QRemove _ d => has_domain s h d = true /\ (p = Current -> h_domain s h = d)
     | _ => True
     end.
Definition uses_in (s : @state A) (h : nat) (q : rcall) (p : part) : Prop :=
  uses q p
  /\ match q with
     | QRemove _ d => p = Current -> has_domain s h d = true
     | QUsed _ =>
         match p with
         | Language => exists t, h_get s h (h_domain s h) = Some t
         | Source => forall t, h_get s h (h_domain s h) = Some t -> tr_get (the_tr s t) (h_locale s h) = None
         | _ => True
         end
     | _ => True
     end.
Definition clash_in (s : @state A) (h : nat) (q q' : rcall) : Prop :=
  exists p, changes_in s h q p /\ (changes_in s h q' p \/ uses_in s h q' p)
         \/ changes_in s h q' p /\ (changes_in s h q p \/ uses_in s h q p).
End Spec.
