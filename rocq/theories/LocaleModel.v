(** Model of /repo/locale/detect.go.  Tags, [language.Make], [Tag.Base],
    [Tag.Region] (golang.org/x/text) and the detected tag (go-locale) are
    quantified. *)
From Verif Require Import GoStr.
Section Locale.
Variable tag : Type.
Variable make : bytes -> tag.
(** the texts of [tag.Base] and [tag.Region]; the confidences are dropped *)
Variable base region : tag -> bytes.
(** 26-30: [%v] of a Base or Region is its String method *)
Definition normalize_tag (t : tag) : bytes := base t ++ B "_" ++ region t.
(** 21-23 *)
Definition normalize (lang : bytes) : bytes := normalize_tag (make lang).
(** 15-18: [detected] is the tag [locale.Detect] gives, its error is dropped *)
Definition get_default (detected : tag) : bytes := normalize_tag detected.
End Locale.
