(** Saving into a destination that may fail: the end of SaveAsPo, SaveAsPot and
    SaveAsMo (translator/po.go:71-72, pot.go:50-51, mo.go:276-277), and of an
    extraction (cmd/xtemplate/internal/run.go:40-52,75-78, param.go:98-111). *)
From Coq Require Import List ZArith.
From Verif Require Import GoStr FileModel PoModel MoModel XtModel.
Import ListNotations.
Local Open Scope Z_scope.

(** [written b] is what the destination's Write answers to [b]: the number of
    bytes it took and whether it returned an error *)
(* the results of translator/po.go:49, pot.go:25, mo.go:214 *)
Inductive saved := SNil | SErr | SPanic.
(** [bytes.Buffer.WriteTo], called once at the end of each of the three
    functions: the result, and the bytes the destination took.  An empty buffer
    is not written; a count above the length panics; a lower count without an
    error is io.ErrShortWrite. *)
(* called at translator/po.go:71, pot.go:50, mo.go:276 *)
Definition write_to (written : bytes -> Z * bool) (b : bytes) : saved * bytes :=
  match b with
  | [] => (SNil, [])
  | _ =>
      let (n, e) := written b in
      if n >? Z.of_nat (length b) then (SPanic, b)
      else (if e then SErr else if n =? Z.of_nat (length b) then SNil else SErr, firstn (Z.to_nat n) b)
  end.
Section Save.
Variable isp : N -> bool.
Variable written : bytes -> Z * bool.
(** po.go:49-73 *)
Definition saves_po_to (f : file) (r : saved) (taken : bytes) : Prop :=
  exists out, saves_po isp f out /\ write_to written out = (r, taken).
(** pot.go:25-52 *)
Definition saves_pot_to (f : file) (r : saved) (taken : bytes) : Prop :=
  exists out, saves_pot isp f out /\ write_to written out = (r, taken).
(** mo.go:214-278; the writes before the last one go to a buffer and cannot fail *)
Definition saves_mo_to (f : file) (r : saved) (taken : bytes) : Prop :=
  exists out, saves_mo f out /\ write_to written out = (r, taken).
End Save.

Section Run.
Variable isp : N -> bool.
Variable globs : fs -> bytes -> option (list bytes).
Variable creatable : bytes -> bool.
Variable parses : list bytes -> bytes -> bytes -> bytes -> option (list tnode).
Variable letter number : N -> bool.
(** what writing the output answers, and whether closing the output file succeeds *)
Variable written : bytes -> Z * bool.
Variable closes : bool.
(** run.go:40-78 with param.go:98-111: [runs] says what would be written.  A
    run that fails earlier closes the output too and ignores the result; after
    a successful write an error of Close is returned (run.go:46-51). *)
Inductive runs_io (now : bytes) (p : param) (w : fs) : outcome -> fs -> bytes -> Prop :=
| IO_before o w' out : runs isp globs creatable parses letter number now p w o w' out -> o <> ROk -> runs_io now p w o w' out
| IO_write w' out text r taken : runs isp globs creatable parses letter number now p w ROk w' out ->
    (to_file p = true /\ w' (p_output p) = Some text \/ to_file p = false /\ out = text) ->
    write_to written text = (r, taken) ->
    runs_io now p w
      (match r with SNil => if to_file p && negb closes then RFail else ROk | SErr => RFail | SPanic => RPanic end)
      (if to_file p then fs_set w' (p_output p) taken else w') (if to_file p then [] else taken).
End Run.
