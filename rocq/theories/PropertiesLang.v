(** C13 and C44: the language of a catalog is the header field Language. *)
From Verif Require Import GoStr GoStrFacts GoMap FileModel FileSpec FileFacts PoModel MoModel PoReadFacts PoLoadFacts MoCatalogFacts
  TransModel TransSpec PropertiesFile.

(** the value of a field that may be missing *)
Definition value_or_empty (v : option bytes) : bytes := match v with Some l => l | None => [] end.
(** After any history of a catalog, Lang returns the field Language of the header text. *)
Theorem C13_language : forall (A : Type) (fmt : bytes -> list A -> bytes) os t,
  header_text os t -> fst (lang (run fmt os)) = value_or_empty (header_value t (B "Language")).
Proof. intros A fmt os t H. exact (run_lang fmt os t H). Qed.
Print Assumptions C13_language.
(** The language under which a translation files a catalog is that field, as GetHeader
    returns it, in every state. *)
Theorem C44_language : forall A (s : @state A) a,
  language_of s (TFile a) = value_or_empty (fst (get_header (B "Language") (the_file s a))).
Proof. reflexivity. Qed.
Print Assumptions C44_language.
(** Catalogs that were read: they are made by adding entries one by one, and
    the language is the field Language of the header text these additions give. *)
Theorem C44_read : forall c f, read_po c = PoOk f \/ read_pot c = PoOk f \/ read_mo c = MoOk f ->
  exists (es : list entry) t, f = fold_left add_entry es new_file /\ header_text (A := nat) (map FileSpec.OAdd es) t
    /\ fst (lang f) = value_or_empty (header_value t (B "Language")).
Proof.
  intros c f H. assert (Bf : exists es, f = fold_left add_entry es new_file).
  { destruct H as [H|[H|H]]; [exact (read_built false _ _ H)|exact (read_built true _ _ H)|exact (read_mo_built _ _ H)]. }
  destruct Bf as [es ->]. destruct (header_text_ex raw (map FileSpec.OAdd es)) as [t T]. exists es, t.
  split; [reflexivity|]. split; [exact T|]. rewrite <- run_adds. apply run_lang, T.
Qed.
Print Assumptions C44_read.
Example C44_read_case :
  let c := B "msgid """"" ++ NL :: B "msgstr ""Language: de\n""" ++ [NL] in
  exists f, read_po c = PoOk f /\ fst (lang f) = B "de".
Proof. eexists. split; vm_compute; reflexivity. Qed.
Example C13_language_case : header_text ex_ops (e_str ex_header) /\ fst (lang (run ex_fmt ex_ops)) = B "xx".
Proof. split; [exact ex_text|vm_compute; reflexivity]. Qed.
