(** What may be left of a .po file that was not written to its end.
    Independent of the reader. *)
From Verif Require Import GoStr FileModel.

(** [shortened e' e]: the entry [e'] is [e] with an end of its translations
    missing.  The message is the same.  Of the translation there is a prefix.
    Of the plural forms there are the first ones, all of them whole but the
    last. *)
Definition shortened (e' e : entry) : Prop :=
  (e_cmts e', e_ctxt e', e_id e', e_plural e', e_id2 e') = (e_cmts e, e_ctxt e, e_id e, e_plural e, e_id2 e)
  /\ (exists r, e_str e = e_str e' ++ r)
  /\ forall i v, nth_error (e_strn e') i = Some v ->
       exists r, nth_error (e_strn e) i = Some (v ++ r) /\ (S i < length (e_strn e') -> r = []).
