(** Specification of reproducible extraction (C73) and of the generated header
    fields (C52), without the model's helpers. *)
From Coq Require Import List Permutation ZArith.
From Verif Require Import GoStr FileModel XtModel XtSpec.
Import ListNotations.
Local Open Scope Z_scope.

(** two template parsers that find the same templates, in any two orders *)
Definition same_templates (P1 P2 : list bytes -> bytes -> bytes -> bytes -> option (list tnode)) : Prop :=
  forall fs l r src,
    P1 fs l r src = None /\ P2 fs l r src = None
    \/ exists a b, P1 fs l r src = Some a /\ P2 fs l r src = Some b /\ Permutation a b.
(** a file name without blank and colon that is not a number *)
Definition plain_name (n : bytes) : Prop := ~ In SP n /\ ~ In ":"%char n /\ forall z, ~ numeral n z.
(** no message occurs in two templates of a file *)
Definition apart (file : bytes) (kws : list keyword) (ts : list tnode) : Prop :=
  forall i j t1 t2 o1 o2 k1 k2 e1 e2, i <> j -> nth_error ts i = Some t1 -> nth_error ts j = Some t2 ->
    message file kws t1 o1 k1 e1 -> message file kws t2 o2 k2 e2 -> ~ (e_ctxt e1 = e_ctxt e2 /\ e_id e1 = e_id e2).
(** lines have at most nine digits *)
Definition lines_below (ts : list tnode) : Prop :=
  forall t o line p, In t ts -> in_node t o line p -> 0 <= line < 1000000000.
(** messages have an id, and a context without separator byte that does not look like a reference *)
Definition plain_messages (file : bytes) (kws : list keyword) (ts : list tnode) : Prop :=
  forall t o k e, In t ts -> message file kws t o k e ->
    e_id e <> [] /\ ~ In EOT (e_ctxt e) /\ forall s, e_ctxt e <> B "#:" ++ s.
Definition tidy (file : bytes) (kws : list keyword) (ts : list tnode) : Prop :=
  plain_name file /\ apart file kws ts /\ lines_below ts /\ plain_messages file kws ts.

(** the header fields of a generated template: names and values *)
Definition header_fields (now : bytes) (p : param) : list (bytes * bytes) :=
  [(B "Project-Id-Version", B "PACKAGE VERSION"); (B "Report-Msgid-Bugs-To", []); (B "POT-Creation-Date", trim_space now);
   (B "PO-Revision-Date", B "YEAR-MO-DA HO:MI+ZONE"); (B "Last-Translator", B "FULL NAME <EMAIL@ADDRESS>");
   (B "Language-Team", B "LANGUAGE <LL@li.org>"); (B "Language", []); (B "MIME-Version", B "1.0");
   (B "Content-Type", B "text/plain; charset=CHARSET"); (B "Content-Transfer-Encoding", B "8bit");
   (B "X-Created-By", B "xtemplate(https://github.com/youthlin/t/tree/main/cmd/xtemplate)");
   (B "X-Xtemplate-Input", trim_space (p_input p)); (B "X-Xtemplate-Left", trim_space (p_left p));
   (B "X-Xtemplate-Right", trim_space (p_right p)); (B "X-Xtemplate-Keywords", trim_space (p_keyword p));
   (B "X-Xtemplate-Functions", trim_space (p_function p)); (B "X-Xtemplate-Output", trim_space (p_output p))].
(** and the comments above it: the usual head of a template, marked fuzzy *)
Definition header_comments : list bytes :=
  split_byte NL (B "# SOME DESCRIPTIVE TITLE.
# Copyright (C) YEAR THE PACKAGE'S COPYRIGHT HOLDER
# This file is distributed under the same license as the PACKAGE package.
# FIRST AUTHOR <EMAIL@ADDRESS>, YEAR.
#
#, fuzzy").
Definition plural_field : bytes * bytes := (B "Plural-Forms", B "nplurals=INTEGER; plural=EXPRESSION;").
Definition one_line (p : param) : Prop :=
  forall s, In s [p_input p; p_left p; p_right p; p_keyword p; p_function p; p_output p] -> ~ In NL s.
