(** Model of /repo/translator/wrap.go. *)
From Coq Require Import ZArith.
From Verif Require Import GoStr.

(** wrap.go:7 *)
Definition line_threshold : Z := 77.
(** wrap.go:15-35.  [None]: out of fuel (never happens with the fuel of
    [split], see WrapFacts). *)
Fixpoint split0 (fuel : nat) (long : bytes) (threshold : Z) (depth : nat) : option (list bytes) :=
  match fuel with
  | O => None
  | S f =>
      let blank :=
        if (Z.of_nat (length long) <=? threshold)%Z then Some [long]
        else match last_index_byte SP long with
             | Some i =>
                 if i <? length long - 1 then
                   option_map (fun l => l ++ [skipn (i + 1) long])
                     (split0 f (firstn (i + 1) long) threshold (S depth))
                 else Some [long]
             | None => Some [long]
             end in
      match index_byte NL long with
      | Some i =>
          if i <? length long - 1 then
            let left := firstn (i + 1) long in
            let prefix := match depth with O => [[]; left] | _ => [left] end in
            option_map (fun l => prefix ++ l) (split0 f (skipn (i + 1) long) threshold (S depth))
          else blank
      | None => blank
      end
  end%nat.
(** wrap.go:10-12 *)
Definition split (long : bytes) (threshold : Z) : option (list bytes) :=
  split0 (S (length long)) long threshold 0.
(** the pieces the writer uses *)
(* called at pot.go:19 *)
Definition split_lines (long : bytes) : list bytes :=
  match split long line_threshold with Some l => l | None => [] end.
