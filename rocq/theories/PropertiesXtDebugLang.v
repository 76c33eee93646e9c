(** Debug mode of xtemplate in the languages it is shipped with. *)
From Coq Require Import List ZArith NArith Bool Ascii.
From Verif Require Import GoStr FileModel XtErrSpec XtErrKeyFacts.
From Verif Require Import GoFmt XtLangModel XtLangSpec XtLangFacts PropertiesXtLang XtDebugSpec.
Import ListNotations.

(** ** C93: in the languages shipped, the conditions of C93_reports are met *)
Theorem C93_shipped : forall norm (print : spec -> GoFmt.arg (list bytes) -> bytes) as_int extra lp tree d0 d, no_path lp ->
  let tr := own_text print as_int extra (started norm lp tree d0 d) in
  sound tr /\ forall m, In m debug_frames -> keeps tr m.
Proof.
  intros norm print as_int extra lp tree d0 d H. cbv zeta. split; [exact (proj1 (C85_shipped norm print as_int extra lp tree d0 d H))|].
  destruct (shipped_own norm print as_int extra lp tree d0 d H) as (tr' & T & E). intros m I.
  assert (K : keeps tr' m).
  { destruct T as [-> | ->]; [|intros ts R; exists ts; auto]. cbn [debug_frames In] in I.
    destruct I as [<-|[<-|[<-|[]]]]; (eapply keeps_by; vm_compute; reflexivity). }
  destruct I as [<-|[<-|[<-|[]]]]; (eapply keeps_ext; [symmetry; apply E; discriminate|exact K]).
Qed.
Print Assumptions C93_shipped.
Example C93_shipped_example : no_path None /\ no_path (Some (B " ")) /\ In (B "Warning: %+v") debug_frames.
Proof.
  split; [intros p H; discriminate H|].
  split; [intros p H; injection H as <-; reflexivity|left; reflexivity].
Qed.
