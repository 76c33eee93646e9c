(** Specification of goroutines that use handles at the same time. *)
From Coq Require Import Permutation.
From Verif Require Import GoStr GoMap FileModel TransModel TransSpec HandleConcModel.

Section Spec.
Context {A : Type}.
Variable fmt : bytes -> list A -> bytes.
Variable norm : bytes -> bytes.
Notation state := (@state A).

(** what a goroutine gets when nothing else is going on: its calls one after the
    other on the state (TransModel.v); a panic ends it *)
Definition target (s : state) (own : list nat) (h : href) : nat :=
  match h with HGlob => s_global s | HShared a => a | HOwn i => nth i own 0 end.
Definition of_xres (r : xres) : ans := match r with XStr t => AText t | XPanic => APanics end.
Definition langs_of (s : state) (h : nat) : list bytes := keys (tr_langs (the_tr s (h_get_or_noop s h (h_domain s h)))).
Definition one (s : state) (own : list nat) (q : @rcall A) : ans * state * list nat :=
  match q with
  | QNew d => let (r, s') := new_translations s d in (ANone, s', own ++ [r])
  | QGlobal => let (r, s') := g_clone s in (ANone, s', own ++ [r])
  | QWith c d => let (r, s') := with_context norm s c d in (ANone, s', own ++ [r])
  | QD h dom => let (r, s') := h_D s (target s own h) dom in (ANone, s', own ++ [r])
  | QL h l d => let (r, s') := h_L norm s (target s own h) l d in (ANone, s', own ++ [r])
  | QSetDomain h dom => (ANone, set_domain s (target s own h) dom, own)
  | QSetLocale h l d => (ANone, set_locale norm s (target s own h) l d, own)
  | QSetSource h l => (ANone, set_source norm s (target s own h) l, own)
  | QBind h dom wm wp => (ANone, bind_fs norm s (target s own h) dom wm wp, own)
  | QRemove h dom => let (b, s') := remove_domain s (target s own h) dom in (ABool b, s', own)
  | QClear h => (ANone, clear_domains s (target s own h), own)
  | QHas h dom => (ABool (has_domain s (target s own h) dom), s, own)
  | QDomain h => (AText (h_domain s (target s own h)), s, own)
  | QLocale h => (AText (h_locale s (target s own h)), s, own)
  | QSource h => (AText (h_source s (target s own h)), s, own)
  | QUsed h => (AText (used_locale s (target s own h)), s, own)
  | QDomains h => (ANames (keys (h_domains s (target s own h))), s, own)
  | QLocales h => (ALangs (h_source s (target s own h)) (langs_of s (target s own h)), s, own)
  | QMost _ => (AMatched (h_source s (s_global s)) (langs_of s (s_global s)) (h_locale s (s_global s)), s, own)
  | QUserLang (Some v) => (AText v, s, own)
  | QUserLang None => (ALangs (h_source s (s_global s)) (langs_of s (s_global s)), s, own)
  | QX h c i args => (AText (h_x fmt s (target s own h) c i args), s, own)
  | QXN h c i i2 n args => let (r, s') := h_xn64 fmt s (target s own h) c i i2 n args in (of_xres r, s', own)
  end.
(** what a caller sees of an answer: Domains gives the names in some order; Locales
    the source language and the normalised languages, each once, sorted;
    MostMatchLocale and GetUserLang the one of these that the matcher of language
    tags chooses ([mtch], [mtch_http]), GetUserLang the cookie if there is one *)
Definition shown_domains (a : ans) (out : list bytes) : Prop := match a with ANames l => Permutation out l | _ => False end.
Definition shown_locales (a : ans) (out : list bytes) : Prop :=
  match a with
  | ALangs so ls | AMatched so ls _ =>
      increasing out /\ forall x, In x out <-> x = so \/ exists l, In l ls /\ x = norm l
  | _ => False
  end.
Definition shown_most (mtch : list bytes -> list bytes -> nat) (a : ans) (out : option bytes) : Prop :=
  match a with
  | AMatched _ _ l => exists supported, shown_locales a supported /\ out = nth_error supported (mtch supported [l])
  | _ => False
  end.
Definition shown_user_lang (mtch_http : list bytes -> bytes -> nat) (accept : bytes) (a : ans) (out : option bytes) : Prop :=
  match a with
  | AText v => out = Some v
  | _ => exists supported, shown_locales a supported /\ out = nth_error supported (mtch_http supported accept)
  end.
Fixpoint by_itself (s : state) (own : list nat) (qs : list (@rcall A)) : list ans :=
  match qs with
  | [] => []
  | q :: qs => match one s own q with
               | (APanics, _, _) => [APanics]
               | (r, s', own') => r :: by_itself s' own' qs
               end
  end.

(** the state after these calls, and after several such lists of calls in turn *)
Fixpoint after (s : state) (own : list nat) (qs : list (@rcall A)) : state :=
  match qs with
  | [] => s
  | q :: qs => match one s own q with
               | (APanics, s', _) => s'
               | (_, s', own') => after s' own' qs
               end
  end.
Definition in_turn (s : state) (qss : list (list (@rcall A))) : state := fold_left (fun s qs => after s [] qs) qss s.

(** what a goroutine does: it has the handles [own] at the start; it makes handles
    from, and asks, those it has or made and the handles no goroutine has; and it
    changes or loads into only those it has or made.  [taken]: the handles that
    some goroutine has; [n]: how many handles this one has and made *)
Definition mine (s : state) (own : list nat) (n : nat) (h : href) : Prop :=
  match h with HGlob => In (s_global s) own | HShared a => In a own | HOwn i => i < n end.
Definition asks (s : state) (taken own : list nat) (n : nat) (h : href) : Prop :=
  mine s own n h
  \/ match h with HGlob => ~ In (s_global s) taken | HShared a => a < length (s_ts s) /\ ~ In a taken | HOwn _ => False end.
Definition polite (s : state) (taken own : list nat) (n : nat) (q : @rcall A) : Prop :=
  match q with
  | QNew _ => True
  | QGlobal | QWith _ _ | QMost _ | QUserLang None => asks s taken own n HGlob
  | QUserLang (Some _) => True
  | QDomains h | QLocales h | QD h _ | QL h _ _ | QHas h _ | QDomain h | QLocale h | QSource h | QUsed h | QX h _ _ _ | QXN h _ _ _ _ _ => asks s taken own n h
  | QSetDomain h _ | QSetLocale h _ _ | QSetSource h _ | QBind h _ _ _ | QRemove h _ | QClear h => mine s own n h
  end.
Definition makes (q : @rcall A) : nat :=
  match q with QNew _ | QGlobal | QWith _ _ | QD _ _ | QL _ _ _ => 1 | _ => 0 end.
Fixpoint request (s : state) (taken own : list nat) (n : nat) (qs : list (@rcall A)) : Prop :=
  match qs with
  | [] => True
  | q :: qs => polite s taken own n q /\ request s taken own (n + makes q) qs
  end.
(** goroutines, each with the handles it has at the start: no handle has two *)
Definition requests (s : state) (gs : list (list nat * list (@rcall A))) : Prop :=
  let taken := concat (map fst gs) in
  NoDup taken /\ Forall (fun h => h < length (s_ts s)) taken
  /\ Forall (fun g => request s taken (fst g) (length (fst g)) (snd g)) gs.
End Spec.

(** two goroutines are about to touch the same place, one of them writing *)
Definition writes_at {A R} (p : @gprog A R) (x : place) : Prop := match p with Wr y _ _ => x = y | _ => False end.
Definition uses_at {A R} (p : @gprog A R) (x : place) : Prop := match p with Wr y _ _ | Rd y _ => x = y | _ => False end.
Definition handle_race {A R} (ps : list (@gprog A R)) : Prop :=
  exists i j p q x, i <> j /\ nth_error ps i = Some p /\ nth_error ps j = Some q /\ writes_at p x /\ uses_at q x.
