(** Property C18: quoting in .po files. *)
From Verif Require Import GoStr GoQuote QuoteSpec GoQuoteFacts.

(** [isp] is any printability table for non-ASCII runes. *)
Theorem C18_unquote_quote : forall isp s, unquote (quote isp s) = Some s.
Proof. exact unquote_quote. Qed.
Print Assumptions C18_unquote_quote.
Theorem C18_quoted_form : forall isp s, quoted (quote isp s).
Proof. exact quote_quoted. Qed.
Print Assumptions C18_quoted_form.
Example C18_case :
  quote (fun _ => true) (byte_of 255 :: NL :: B "say ""hi"" \") = DQ :: B "\xff\nsay \""hi\"" \\" ++ [DQ].
Proof. vm_compute. reflexivity. Qed.
