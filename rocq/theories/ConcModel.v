(** Goroutines that translate through one catalog at the same time:
    /repo/translator/file.go as a program whose accesses to the two fields that
    are computed on demand, [headers] and [plural], are single steps.
    [entries] is only written by AddEntry, which is not among the calls here, so
    it is a constant.  Steps of different goroutines interleave in any order
    (sequential consistency). *)
From Verif Require Import GoStr GoMap FileModel.
Local Open Scope Z_scope.

(** the shared fields of a catalog *)
(* translator/file.go:22-26, the fields headers and plural *)
Record shared := { sh_headers : option (gmap bytes); sh_plural : option plural }.
(** a goroutine: what it does next *)
(* the accesses of translator/file.go:94-135 to the two fields; [Ret] ends a call *)
Inductive prog (R : Type) :=
| Ret (r : R)
| ReadHeaders (k : option (gmap bytes) -> prog R)
| WriteHeaders (h : gmap bytes) (k : prog R)
| ReadPlural (k : option plural -> prog R)
| WritePlural (p : plural) (k : prog R).
Arguments Ret {R}. Arguments ReadHeaders {R}. Arguments WriteHeaders {R}. Arguments ReadPlural {R}. Arguments WritePlural {R}.

Section Calls.
Context {A : Type}.
Variable fmt : bytes -> list A -> bytes.
Variable entries : gmap entry.
(* what file.go:29-66,94-98 return; [RPanics]: a run-time panic *)
Inductive result := RText (s : bytes) | RHeader (v : option bytes) | RPanics.
(** file.go:100-123 *)
Definition init_header_c (k : prog result) : prog result :=
  ReadHeaders (fun h =>
    match h with
    | Some _ => k
    | None => WriteHeaders (match mget (key [] []) entries with Some e => parse_headers (e_str e) | None => [] end) k
    end).
(** file.go:94-98; reading a nil map gives nothing *)
Definition get_header_c (name : bytes) (k : option bytes -> prog result) : prog result :=
  init_header_c (ReadHeaders (fun h => k (match h with Some h => mget name h | None => None end))).
(** file.go:130-135 *)
Definition init_plural_c (k : prog result) : prog result :=
  ReadPlural (fun p =>
    match p with
    | Some _ => k
    | None => get_header_c H_plural_forms (fun v => WritePlural (parse_plural (or_empty v)) k)
    end).
(** file.go:125-128 *)
Definition get_plural_c (k : option plural -> prog result) : prog result := init_plural_c (ReadPlural k).
(** the calls: file.go:29-32, 35-41, 44-66, 94-98 *)
Inductive call :=
| CLang | CHeader (name : bytes) | CX (c i : bytes) (args : list A) | CXN (c i i2 : bytes) (n : Z) (args : list A).
(* file.go:29-32, 35-41, 44-66 and 94-98, access by access *)
Definition run_call (o : call) : prog result :=
  match o with
  | CLang => get_header_c H_language (fun v => Ret (RText (or_empty v)))
  | CHeader name => get_header_c name (fun v => Ret (RHeader v))
  | CX c i args =>
      Ret (RText (match mget (key c i) entries with
                  | None => fmt i args
                  | Some e => if is_empty (e_str e) then fmt i args else fmt (e_str e) args
                  end))
  | CXN c i i2 n args =>
      match mget (key c i) entries with
      | None => Ret (RText (default_plural fmt i i2 n args))
      | Some e =>
          if is_empty (e_id2 e) && match e_strn e with [] => true | _ => false end then
            Ret (RText (if negb (is_empty (e_str e)) then fmt (e_str e) args else fmt i args))
          else
            get_plural_c (fun p =>
              match p with
              | None => Ret RPanics                        (* nil pointer *)
              | Some p =>
                  if p_total p <=? 0 then Ret (RText (default_plural fmt i i2 n args))
                  else
                    let index := plural_fn p n in
                    let len := Z.of_nat (length (e_strn e)) in
                    if (index <? 0) || (index >=? p_total p) || (index >? len)
                    then Ret (RText (default_plural fmt i i2 n args))
                    else
                      match nth_error (e_strn e) (Z.to_nat index) with
                      | None => Ret RPanics                (* index out of range *)
                      | Some s => if is_empty s then Ret (RText (default_plural fmt i i2 n args)) else Ret (RText (fmt s args))
                      end
              end)
      end
  end.

(** a goroutine that makes several calls, one after the other; a panic ends it *)
(* sequencing of statements in file.go:29-66 *)
Fixpoint bind {R T} (p : prog R) (k : R -> prog T) : prog T :=
  match p with
  | Ret r => k r
  | ReadHeaders g => ReadHeaders (fun h => bind (g h) k)
  | WriteHeaders h g => WriteHeaders h (bind g k)
  | ReadPlural g => ReadPlural (fun h => bind (g h) k)
  | WritePlural q g => WritePlural q (bind g k)
  end.
(* no counterpart in /repo: a caller of file.go:29-66,94-98 *)
Fixpoint run_calls (os : list call) : prog (list result) :=
  match os with
  | [] => Ret []
  | o :: os => bind (run_call o) (fun r =>
                 match r with
                 | RPanics => Ret [r]
                 | _ => bind (run_calls os) (fun rs => Ret (r :: rs))
                 end)
  end.

(** one step of one goroutine *)
(* one access of file.go:94-135 to the fields of file.go:22-26 *)
Definition step1 {R} (s : shared) (p : prog R) : option (shared * prog R) :=
  match p with
  | Ret _ => None
  | ReadHeaders k => Some (s, k (sh_headers s))
  | WriteHeaders h k => Some ({| sh_headers := Some h; sh_plural := sh_plural s |}, k)
  | ReadPlural k => Some (s, k (sh_plural s))
  | WritePlural q k => Some ({| sh_headers := sh_headers s; sh_plural := Some q |}, k)
  end.
(** any of the goroutines makes a step *)
(* no counterpart in /repo: the catalog of file.go:22-26 and the goroutines that use it *)
Definition config := (shared * list (prog (list result)))%type.
(** after [n] steps *)
(* no counterpart in /repo: the Go scheduler, see the head of this file *)
Inductive steps_c : nat -> config -> config -> Prop :=
| SC_refl c : steps_c 0 c c
| SC_step n c s a p b s' p' : steps_c n c (s, a ++ p :: b) -> step1 s p = Some (s', p') -> steps_c (S n) c (s', a ++ p' :: b).
End Calls.
Arguments CLang {A}. Arguments CHeader {A}. Arguments CX {A}. Arguments CXN {A}.
(* translator/file.go:22-26 *)
Definition shared_of (f : file) : shared := {| sh_headers := f_headers f; sh_plural := f_plural f |}.
