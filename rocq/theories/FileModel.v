(** Model of /repo/translator/{entry,file,plural,util}.go: catalogs. *)
From Verif Require Import GoStr GoMap GoRegex PluralModel.
Local Open Scope Z_scope.

(** ** Entries: /repo/translator/entry.go:10-18.  Nil and empty slices are the
    same value here; no function of the package distinguishes them. *)
Record entry := {
  e_cmts : list bytes; e_ctxt : bytes; e_id : bytes; e_plural : bool;
  e_id2 : bytes; e_str : bytes; e_strn : list bytes }.
(** util.go:9-11 *)
Definition key (ctxt msgid : bytes) : bytes := ctxt ++ EOT :: msgid.
(** entry.go:21-23 *)
Definition e_key (e : entry) : bytes := key (e_ctxt e) (e_id e).
(* the comparison of a string with the empty one, e.g. entry.go:27 *)
Definition is_empty (s : bytes) : bool := match s with [] => true | _ => false end.
(** entry.go:26-28 *)
Definition is_header (e : entry) : bool := is_empty (e_id e).
(** entry.go:31-34 on a non-nil receiver *)
Definition is_valid (e : entry) : bool :=
  negb (is_empty (e_str e)) || match e_strn e with [] => false | _ => true end.

(** ** Plural rules: /repo/translator/plural.go:12-16.  [p_expr = None]: the
    function is [invalidPluralFn]; [Some exp]: the closure of lines 36-42. *)
Record plural := { p_total : Z; p_expr : option bytes }.
(* plural.go:20 and 36-42 *)
Definition plural_fn (p : plural) (n : Z) : Z :=
  match p_expr p with
  | None => -1
  | Some exp => match eval exp n with EvOk v => v | _ => -1 end
  end.
(** plural.go:19, the pattern of [rePlurals]: optional spaces around each of the
    tokens nplurals, =, one digit (group 1), ;, plural, =, any text without
    newline (group 2, greedy), ;, end of text.  The leading caret is the
    [anchored] argument. *)
Definition sp_star : item := IStar true re_space.
(* plural.go:19 *)
Definition re_plurals : list item :=
  sp_star :: lit "nplurals" ++ [sp_star] ++ lit "=" ++ [sp_star; IOne is_digit; sp_star]
  ++ lit ";" ++ [sp_star] ++ lit "plural" ++ [sp_star] ++ lit "=" ++ [sp_star; IStar true re_dot; sp_star]
  ++ lit ";" ++ [IEnd].
(** positions of the two groups in [re_plurals] *)
(* plural.go:19, 29-31 *)
Definition grp_n (m : list bytes) : bytes := nth 12 m [].
(* plural.go:19, 29-32 *)
Definition grp_exp (m : list bytes) : bytes := nth 25 m [].
(** plural.go:23-46 *)
Definition parse_plural (forms : bytes) : plural :=
  match forms with
  | [] => {| p_total := 0; p_expr := None |}
  | _ =>
      match find_all true re_plurals forms with
      | [m] =>
          match parse_int (grp_n m) with
          | Some total => {| p_total := total; p_expr := Some (grp_exp m) |}
          | None => {| p_total := 0; p_expr := None |}
          end
      | _ => {| p_total := 0; p_expr := None |}
      end
  end.

(** ** Files: /repo/translator/file.go:22-26; [None] is a nil map or pointer of
    [headers] and [plural]; a nil [entries] map behaves as an empty one *)
Record file := { f_entries : gmap entry; f_headers : option (gmap bytes); f_plural : option plural }.
(* new(File), po.go:33 and mo.go:93 *)
Definition new_file : file := {| f_entries := []; f_headers := None; f_plural := None |}.

(** file.go:19, the pattern of [reHeader]: lazy text (group 1), colon, space,
    greedy text (group 2) *)
Definition re_header : list item := [IStar false re_dot; IOne (Ascii.eqb ":"); IOne (Ascii.eqb " "); IStar true re_dot].
(** file.go:104-119, one line *)
Definition header_line (kv : bytes) (headers : gmap bytes) : gmap bytes :=
  match kv with
  | [] => headers
  | _ =>
      match find_all false re_header kv with
      | [m] =>
          let k := trim_space (nth 0 m []) in
          let v := trim_space (nth 3 m []) in
          match mget k headers with None => mput k v headers | Some _ => headers end
      | _ => headers
      end
  end.
(* file.go:102-120 *)
Definition parse_headers (text : bytes) : gmap bytes :=
  fold_left (fun h kv => header_line kv h) (split_byte NL text) [].
(** file.go:100-123 *)
Definition init_header (f : file) : file :=
  match f_headers f with
  | Some _ => f
  | None =>
      let h := match mget (key [] []) (f_entries f) with
               | Some e => parse_headers (e_str e)
               | None => []
               end in
      {| f_entries := f_entries f; f_headers := Some h; f_plural := f_plural f |}
  end.
(** file.go:94-98: the value and the file afterwards *)
Definition get_header (k : bytes) (f : file) : option bytes * file :=
  let f' := init_header f in
  (match f_headers f' with Some h => mget k h | None => None end, f').
(* file.go:13 *)
Definition H_plural_forms : bytes := B "Plural-Forms".
(* file.go:15 *)
Definition H_language : bytes := B "Language".
(* file.go:30 and 132: the value without the second result *)
Definition or_empty (o : option bytes) : bytes := match o with Some v => v | None => [] end.
(** file.go:130-135 *)
Definition init_plural (f : file) : file :=
  match f_plural f with
  | Some _ => f
  | None =>
      let (forms, f') := get_header H_plural_forms f in
      {| f_entries := f_entries f'; f_headers := f_headers f';
         f_plural := Some (parse_plural (or_empty forms)) |}
  end.
(** file.go:82-91 on a non-nil entry *)
Definition add_entry (f : file) (e : entry) : file :=
  let f1 := {| f_entries := mput (e_key e) e (f_entries f); f_headers := f_headers f; f_plural := f_plural f |} in
  if is_header e then init_plural (init_header f1) else f1.
(** file.go:29-32 *)
Definition lang (f : file) : bytes * file :=
  let (v, f') := get_header H_language f in (or_empty v, f').

(** ** Lookups.  [fmt] is [f.Format] of package f, see FmtModel. *)
Section Lookup.
Context {A : Type}.
Variable fmt : bytes -> list A -> bytes.
(** /repo/f/format.go:27-35 *)
Definition default_plural (id id2 : bytes) (n : Z) (args : list A) : bytes :=
  if is_empty id2 then fmt id args
  else if negb (n =? 1) then fmt id2 args
  else fmt id args.
(** file.go:35-41 *)
Definition f_x (f : file) (ctxt id : bytes) (args : list A) : bytes :=
  match mget (key ctxt id) (f_entries f) with
  | None => fmt id args
  | Some e => if is_empty (e_str e) then fmt id args else fmt (e_str e) args
  end.
(* the result of file.go:44-66: a text or a panic *)
Inductive xres := XStr (s : bytes) | XPanic.
(** file.go:44-66; [XPanic] is the index-out-of-range panic of line 61.
    [int(index)] is the identity on a 64-bit platform. *)
Definition f_xn64 (f : file) (ctxt id id2 : bytes) (n : Z) (args : list A) : xres * file :=
  match mget (key ctxt id) (f_entries f) with
  | None => (XStr (default_plural id id2 n args), f)
  | Some e =>
      if is_empty (e_id2 e) && match e_strn e with [] => true | _ => false end then
        (XStr (if negb (is_empty (e_str e)) then fmt (e_str e) args else fmt id args), f)
      else
        let f' := init_plural f in
        match f_plural f' with
        | None => (XPanic, f')                       (* nil pointer, never happens *)
        | Some p =>
            if p_total p <=? 0 then (XStr (default_plural id id2 n args), f')
            else
              let index := plural_fn p n in
              let len := Z.of_nat (length (e_strn e)) in
              if (index <? 0) || (index >=? p_total p) || (index >? len)
              then (XStr (default_plural id id2 n args), f')
              else
                match nth_error (e_strn e) (Z.to_nat index) with
                | None => (XPanic, f')
                | Some s =>
                    if is_empty s then (XStr (default_plural id id2 n args), f')
                    else (XStr (fmt s args), f')
                end
        end
  end.
End Lookup.

(** ** Order of saving: entry.go:37-70 *)
(** fmt.Sprintf("%10d", i) *)
(* entry.go:61 *)
Definition pad10 (s : bytes) : bytes := repeat SP (10 - length s) ++ s.
(* entry.go:57-62 *)
Definition sort_field (n : bytes) : bytes :=
  match parse_int n with Some i => pad10 (dec_Z i) | None => n end.
(* entry.go:49-66 *)
Definition line_string_1 (cmt : bytes) : bytes :=
  B "#:" ++ concat (concat (map (fun it => map sort_field (split_byte ":" it))
                      (split_byte SP (trim_prefix (B "#:") cmt)))).
(* entry.go:46-70 *)
Definition line_string (e : entry) : bytes :=
  concat (map (fun c => if has_prefix (B "#:") c then line_string_1 c else []) (e_cmts e)).
(* entry.go:37-42 *)
Definition sort_key (e : entry) : bytes :=
  if is_header e then [] else line_string e ++ e_key e.
(** file.go:69-79: [sort.Slice] is not stable and the map is visited in any
    order, so the result is any permutation of the entries that is ordered by
    sort key. *)
Fixpoint sorted_by_key (l : list entry) : Prop :=
  match l with
  | [] => True
  | e :: r => (forall x, In x r -> bltb (sort_key x) (sort_key e) = false) /\ sorted_by_key r
  end.
