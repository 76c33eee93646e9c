(** Model of /repo/translator/mo.go: reading and writing .mo files. *)
From Coq Require Import Permutation.
From Verif Require Import GoStr GoMap FileModel PoModel.
Local Open Scope N_scope.

(** ** Words.  [binary.Read]/[binary.Write] of fixed-size integers, for the two
    byte orders of package encoding/binary. *)
(* mo.go:100-105 *)
Inductive border := LE | BE.
(* used by binary.Read at mo.go:97, 112, 131, 146 *)
Definition word32 (bo : border) (a b c d : ascii) : N :=
  match bo with
  | LE => code a + 256 * code b + 65536 * code c + 16777216 * code d
  | BE => code d + 256 * code c + 65536 * code b + 16777216 * code a
  end.
(* used by binary.Read at mo.go:112 *)
Definition word16 (bo : border) (a b : ascii) : N :=
  match bo with LE => code a + 256 * code b | BE => code b + 256 * code a end.
(** a conversion [uint32(x)] followed by [binary.Write] *)
(* mo.go:229-250, 283-312 *)
Definition put32 (bo : border) (n : N) : bytes :=
  let l := [byte_of (n mod 256); byte_of (n / 256 mod 256); byte_of (n / 65536 mod 256); byte_of (n / 16777216 mod 256)] in
  match bo with LE => l | BE => rev l end.

(** ** [bytes.Reader]: [Seek] to an offset is [drop] of the whole content
    (seeking behind the end is allowed), reading [n] bytes is [take]: [None] is
    the error of [io.ReadFull] when fewer bytes are left; reading nothing never
    fails. *)
(* used by r.Seek at mo.go:123, 139, 156, 167 *)
Fixpoint drop (n : N) (s : bytes) : bytes :=
  if n =? 0 then s else match s with [] => [] | _ :: t => drop (n - 1) t end.
(* used by binary.Read at mo.go:97-172 *)
Fixpoint take (n : N) (s : bytes) : option bytes :=
  if n =? 0 then Some [] else
  match s with
  | [] => None
  | c :: t => option_map (cons c) (take (n - 1) t)
  end.

(** mo.go:64-72 *)
Definition mo_magic : N := 0x950412de.
(* mo.go:68 *)
Definition mo_magic_big : N := 0xde120495.
(* mo.go:69 *)
Definition flag : bytes := B "ThisFileIsGenerateBy:github.com/youthlin/t" ++ [NUL].
(* mo.go:70 *)
Definition flag_len : N := 43.
(* mo.go:71 *)
Definition offset_o : N := 28 + 4 + flag_len.

(** ** Reading: mo.go:92-196.  Memory exhaustion ([make] of up to 4 GB before
    the bytes are read) is not modelled; error values are in MoErrModel. *)
(** mo.go:76-84 *)
Record header := { h_major : N; h_minor : N; h_count : N; h_o : N; h_t : N; h_s : N; h_h : N }.
(* mo.go:96-99 *)
Definition read_magic (content : bytes) : option N :=
  match take 4 content with
  | Some [a; b; c; d] => Some (word32 LE a b c d)
  | _ => None
  end.
(* mo.go:111-120 *)
Definition read_header (bo : border) (content : bytes) : option header :=
  match take 24 (drop 4 content) with
  | Some [a1; a2; a3; a4; b1; b2; b3; b4; c1; c2; c3; c4; d1; d2; d3; d4; e1; e2; e3; e4; f1; f2; f3; f4] =>
      Some {| h_major := word16 bo a1 a2; h_minor := word16 bo a3 a4; h_count := word32 bo b1 b2 b3 b4;
              h_o := word32 bo c1 c2 c3 c4; h_t := word32 bo d1 d2 d3 d4;
              h_s := word32 bo e1 e2 e3 e4; h_h := word32 bo f1 f2 f3 f4 |}
  | _ => None
  end.
(** mo.go:128-136 and 143-151: [n] pairs (length, offset) *)
Fixpoint read_table (bo : border) (n : N) (s : bytes) : option (list (N * N)) :=
  if n =? 0 then Some [] else
  match s with
  | a1 :: a2 :: a3 :: a4 :: b1 :: b2 :: b3 :: b4 :: r =>
      option_map (cons (word32 bo a1 a2 a3 a4, word32 bo b1 b2 b3 b4)) (read_table bo (n - 1) r)
  | _ => None
  end.
(* mo.go:156-164 and 167-175 *)
Definition read_str (content : bytes) (lo : N * N) : option bytes := take (fst lo) (drop (snd lo) content).
(** mo.go:178-192 *)
Definition cut_at_byte (c : ascii) (s : bytes) : option (bytes * bytes) :=
  match index_byte c s with
  | Some i => Some (firstn i s, skipn (i + 1) s)
  | None => None
  end.
(* mo.go:178-192 *)
Definition mo_entry (id str : bytes) : entry :=
  let (ctxt, id1) := match cut_at_byte EOT id with Some p => p | None => ([], id) end in
  match cut_at_byte NUL id1 with
  | Some (i, i2) =>
      {| e_cmts := []; e_ctxt := ctxt; e_id := i; e_plural := true; e_id2 := i2; e_str := [];
         e_strn := split_byte NUL str |}
  | None =>
      {| e_cmts := []; e_ctxt := ctxt; e_id := id1; e_plural := false; e_id2 := []; e_str := str; e_strn := [] |}
  end.
(** mo.go:154-194; [MoPanic] would be the index panic of [msgStrMeta[i]] *)
Inductive mores := MoOk (f : file) | MoErr | MoPanic.
(* mo.go:154-194 *)
Fixpoint read_strings (content : bytes) (ids strs : list (N * N)) (f : file) : mores :=
  match ids, strs with
  | [], _ => MoOk f
  | i :: ids', s :: strs' =>
      match read_str content i with
      | None => MoErr
      | Some id =>
          match read_str content s with
          | None => MoErr
          | Some str => read_strings content ids' strs' (add_entry f (mo_entry id str))
          end
      end
  | _ :: _, [] => MoPanic
  end.
(* mo.go:92-196 *)
Definition read_mo (content : bytes) : mores :=
  match read_magic content with
  | None => MoErr
  | Some magic =>
      let read bo :=
        match read_header bo content with
        | None => MoErr
        | Some h =>
            if negb (h_major h =? 0) && negb (h_major h =? 1) then MoErr else
            if negb (h_minor h =? 0) && negb (h_minor h =? 1) then MoErr else
            match read_table bo (h_count h) (drop (h_o h) content) with
            | None => MoErr
            | Some ids =>
                match read_table bo (h_count h) (drop (h_t h) content) with
                | None => MoErr
                | Some strs => read_strings content ids strs new_file
                end
            end
        end in
      if magic =? mo_magic_big then read BE
      else if magic =? mo_magic then read LE
      else MoErr
  end.

(** ** Writing *)
(** mo.go:318-327 *)
Definition mo_id (e : entry) : bytes :=
  (if negb (is_empty (e_ctxt e)) then e_ctxt e ++ EOT :: e_id e else e_id e)
  ++ (if e_plural e then NUL :: e_id2 e else []).
(** mo.go:329-335 *)
Definition mo_str (e : entry) : bytes :=
  match e_strn e with [] => e_str e | l => join [NUL] l end.
(* len of a string as uint32, mo.go:228 and 245; the catalogs have less than 4 GB *)
Definition len (s : bytes) : N := N.of_nat (length s).
(** mo.go:225-237 and 242-254: the pairs of one table from offset [off] on, and
    the offset behind the last string *)
Fixpoint write_table (off : N) (l : list bytes) : bytes * N :=
  match l with
  | [] => ([], off)
  | s :: r => let (t, off') := write_table (off + len s + 1) r in (put32 LE (len s) ++ put32 LE off ++ t, off')
  end.
(** mo.go:280-316 *)
Definition write_mo_header (count : N) : bytes :=
  put32 LE mo_magic ++ put32 LE 0 ++ put32 LE count ++ put32 LE offset_o ++ put32 LE (offset_o + count * 8)
  ++ put32 LE 0 ++ put32 LE 0 ++ put32 LE flag_len ++ flag.
(* mo.go:260-265 and 269-274 *)
Definition write_strings (l : list bytes) : bytes := concat (map (fun s => s ++ [NUL]) l).
(** mo.go:214-278 for the entries in the order [l] *)
Definition mo_bytes (l : list entry) : bytes :=
  let count := N.of_nat (length l) in
  let ids := map mo_id l in
  let strs := map mo_str l in
  let (t1, off) := write_table (offset_o + count * 8 * 2) ids in
  let (t2, _) := write_table off strs in
  write_mo_header count ++ t1 ++ t2 ++ write_strings ids ++ write_strings strs.
(* mo.go:214-278 *)
Definition saves_mo (f : file) (out : bytes) : Prop :=
  exists l, sorted_entries f l /\ out = mo_bytes l.
