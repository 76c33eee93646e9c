(** Specifications for .mo files. *)
From Verif Require Import GoStr GoMap FileModel PoModel PoSpec MoModel.
Local Open Scope N_scope.

(** the 32-bit number at position [p], and [n] bytes at position [p] *)
Definition byte_at (c : bytes) (p : N) : option N := option_map code (nth_error c (N.to_nat p)).
Definition word_at (bo : border) (c : bytes) (p : N) (v : N) : Prop :=
  exists b0 b1 b2 b3, byte_at c p = Some b0 /\ byte_at c (p + 1) = Some b1
    /\ byte_at c (p + 2) = Some b2 /\ byte_at c (p + 3) = Some b3
    /\ v = match bo with
           | LE => b0 + 2 ^ 8 * b1 + 2 ^ 16 * b2 + 2 ^ 24 * b3
           | BE => b3 + 2 ^ 8 * b2 + 2 ^ 16 * b1 + 2 ^ 24 * b0
           end.
Definition bytes_at (c : bytes) (p : N) (s : bytes) : Prop :=
  exists a b, c = a ++ s ++ b /\ N.of_nat (length a) = p.

(** *** catalogs that a .mo file can express *)
Definition mo_ok (e : entry) : Prop :=
  ~ In EOT (e_ctxt e) /\ ~ In NUL (e_id e)
  /\ (e_ctxt e = [] -> ~ In EOT (e_id e) /\ ~ In EOT (e_id2 e))
  /\ (if e_plural e then e_str e = [] /\ e_strn e <> [] /\ (forall s, In s (e_strn e) -> ~ In NUL s)
      else e_id2 e = [] /\ e_strn e = []).

(** *** the MO format.  [c] stores the strings [ids] and [strs] in byte order
    [bo]: the format of the GNU gettext manual, without the demand that the
    strings are sorted and terminated *)
Definition half_at (bo : border) (c : bytes) (p : N) (v : N) : Prop :=
  exists b0 b1, byte_at c p = Some b0 /\ byte_at c (p + 1) = Some b1
    /\ v = match bo with LE => b0 + 2 ^ 8 * b1 | BE => b1 + 2 ^ 8 * b0 end.
Fixpoint table_at (bo : border) (c : bytes) (p : N) (l : list bytes) : Prop :=
  match l with
  | [] => True
  | s :: r => word_at bo c p (N.of_nat (length s))
              /\ (exists off, word_at bo c (p + 4) off /\ (s = [] \/ bytes_at c off s))
              /\ table_at bo c (p + 8) r
  end.
Definition stores (bo : border) (c : bytes) (ids strs : list bytes) : Prop :=
  word_at bo c 0 0x950412de
  /\ (exists major minor, half_at bo c 4 major /\ half_at bo c 6 minor /\ major <= 1 /\ minor <= 1)
  /\ (exists n o t, word_at bo c 8 n /\ word_at bo c 12 o /\ word_at bo c 16 t
        /\ n = N.of_nat (length ids) /\ n = N.of_nat (length strs)
        /\ table_at bo c o ids /\ table_at bo c t strs)
  /\ (28 <= length c)%nat.

(** what the strings of a .mo file mean *)
Definition means (id str : bytes) (e : entry) : Prop :=
  e_cmts e = []
  /\ exists id1, (if existsb (Ascii.eqb EOT) id then id = e_ctxt e ++ EOT :: id1 /\ ~ In EOT (e_ctxt e)
                  else e_ctxt e = [] /\ id1 = id)
  /\ if existsb (Ascii.eqb NUL) id1
     then id1 = e_id e ++ NUL :: e_id2 e /\ ~ In NUL (e_id e)
          /\ e_plural e = true /\ e_str e = [] /\ join [NUL] (e_strn e) = str
          /\ e_strn e <> [] /\ (forall s, In s (e_strn e) -> ~ In NUL s)
     else e_id e = id1 /\ e_id2 e = [] /\ e_plural e = false /\ e_str e = str /\ e_strn e = [].

(** entry [i] of the table at [p] (little endian) *)
Definition table_entry (c : bytes) (p : N) (i : nat) (n off : N) : Prop :=
  word_at LE c (p + 8 * N.of_nat i) n /\ word_at LE c (p + 8 * N.of_nat i + 4) off.
