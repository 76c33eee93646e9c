(** The plural rules of the languages of the GNU gettext manual (and of four more
    languages), with what the rules say in words about the digits of a number. *)
From Verif Require Import GoStr PluralModel PluralSpec.
Local Open Scope Z_scope.

Inductive family :=
| Asian | Germanic | French | Latvian | Irish | Romanian | Lithuanian | Slavic | Czech
| Polish | Slovenian | Arabic | Irish5 | Welsh | Icelandic | Macedonian.

(** the rule as a translator finds it in the manual *)
Definition rule_text (f : family) : bytes :=
  match f with
  | Asian => B "0"
  | Germanic => B "n != 1"
  | French => B "n>1"
  | Latvian => B "n%10==1 && n%100!=11 ? 0 : n != 0 ? 1 : 2"
  | Irish => B "n==1 ? 0 : n==2 ? 1 : 2"
  | Romanian => B "n==1 ? 0 : (n==0 || (n%100 > 0 && n%100 < 20)) ? 1 : 2"
  | Lithuanian => B "n%10==1 && n%100!=11 ? 0 : n%10>=2 && (n%100<10 || n%100>=20) ? 1 : 2"
  | Slavic => B "n%10==1 && n%100!=11 ? 0 : n%10>=2 && n%10<=4 && (n%100<10 || n%100>=20) ? 1 : 2"
  | Czech => B "(n==1) ? 0 : (n>=2 && n<=4) ? 1 : 2"
  | Polish => B "n==1 ? 0 : n%10>=2 && n%10<=4 && (n%100<10 || n%100>=20) ? 1 : 2"
  | Slovenian => B "n%100==1 ? 0 : n%100==2 ? 1 : n%100==3 || n%100==4 ? 2 : 3"
  | Arabic => B "n==0 ? 0 : n==1 ? 1 : n==2 ? 2 : n%100>=3 && n%100<=10 ? 3 : n%100>=11 ? 4 : 5"
  | Irish5 => B "n==1 ? 0 : n==2 ? 1 : (n>2 && n<7) ? 2 :(n>6 && n<11) ? 3 : 4"
  | Welsh => B "(n==1) ? 0 : (n==2) ? 1 : (n != 8 && n != 11) ? 2 : 3"
  | Icelandic => B "(n%10!=1 || n%100==11)"
  | Macedonian => B "n==1 || n%10==1 ? 0 : 1"
  end.
(** the number of forms the manual gives with it *)
Definition count (f : family) : Z :=
  match f with
  | Asian => 1
  | Germanic | French | Icelandic | Macedonian => 2
  | Latvian | Irish | Romanian | Lithuanian | Slavic | Czech | Polish => 3
  | Slovenian | Welsh => 4
  | Irish5 => 5
  | Arabic => 6
  end.

(** ** Numbers by their last digits *)
Definition ends (n d : Z) : Prop := exists q, 0 <= q /\ n = 10 * q + d.
Definition ends2 (n d : Z) : Prop := exists q, 0 <= q /\ n = 100 * q + d.
(** the last digit, the last two digits lie between [a] and [b] *)
Definition ends_in (n a b : Z) : Prop := exists d, a <= d <= b /\ ends n d.
Definition ends2_in (n a b : Z) : Prop := exists d, a <= d <= b /\ ends2 n d.

(** ** The form of a number that is not negative *)
Inductive form : family -> Z -> Z -> Prop :=
| F_asian n : form Asian n 0
| F_ger_1 : form Germanic 1 0
| F_ger n : n <> 1 -> form Germanic n 1
| F_fr_0 n : n = 0 \/ n = 1 -> form French n 0
| F_fr n : n >= 2 -> form French n 1
| F_lv_1 n : ends n 1 -> ~ ends2 n 11 -> form Latvian n 0
| F_lv n : ends_in n 2 9 \/ (ends n 0 /\ n <> 0) \/ ends2 n 11 -> form Latvian n 1
| F_lv_0 : form Latvian 0 2
| F_ga_1 : form Irish 1 0
| F_ga_2 : form Irish 2 1
| F_ga n : n = 0 \/ n >= 3 -> form Irish n 2
| F_ro_1 : form Romanian 1 0
| F_ro_few n : n = 0 \/ (n <> 1 /\ ends2_in n 1 19) -> form Romanian n 1
| F_ro n : (n <> 0 /\ ends2 n 0) \/ ends2_in n 20 99 -> form Romanian n 2
| F_lt_1 n : ends n 1 -> ~ ends2 n 11 -> form Lithuanian n 0
| F_lt_few n : ends_in n 2 9 -> ~ ends2_in n 12 19 -> form Lithuanian n 1
| F_lt n : ends n 0 \/ ends2_in n 11 19 -> form Lithuanian n 2
| F_sl_1 n : ends n 1 -> ~ ends2 n 11 -> form Slavic n 0
| F_sl_few n : ends_in n 2 4 -> ~ ends2_in n 12 14 -> form Slavic n 1
| F_sl n : ends n 0 \/ ends_in n 5 9 \/ ends2_in n 11 14 -> form Slavic n 2
| F_cs_1 : form Czech 1 0
| F_cs_few n : 2 <= n <= 4 -> form Czech n 1
| F_cs n : n = 0 \/ n >= 5 -> form Czech n 2
| F_pl_1 : form Polish 1 0
| F_pl_few n : ends_in n 2 4 -> ~ ends2_in n 12 14 -> form Polish n 1
| F_pl n : n <> 1 -> ends_in n 0 1 \/ ends_in n 5 9 \/ ends2_in n 12 14 -> form Polish n 2
| F_sn_1 n : ends2 n 1 -> form Slovenian n 0
| F_sn_2 n : ends2 n 2 -> form Slovenian n 1
| F_sn_3 n : ends2_in n 3 4 -> form Slovenian n 2
| F_sn n : ends2 n 0 \/ ends2_in n 5 99 -> form Slovenian n 3
| F_ar_0 : form Arabic 0 0
| F_ar_1 : form Arabic 1 1
| F_ar_2 : form Arabic 2 2
| F_ar_few n : ends2_in n 3 10 -> form Arabic n 3
| F_ar_many n : ends2_in n 11 99 -> form Arabic n 4
| F_ar n : n > 2 -> ends2_in n 0 2 -> form Arabic n 5
| F_ge_1 : form Irish5 1 0
| F_ge_2 : form Irish5 2 1
| F_ge_3 n : 3 <= n <= 6 -> form Irish5 n 2
| F_ge_7 n : 7 <= n <= 10 -> form Irish5 n 3
| F_ge n : n = 0 \/ n >= 11 -> form Irish5 n 4
| F_cy_1 : form Welsh 1 0
| F_cy_2 : form Welsh 2 1
| F_cy n : n <> 1 -> n <> 2 -> n <> 8 -> n <> 11 -> form Welsh n 2
| F_cy_8 n : n = 8 \/ n = 11 -> form Welsh n 3
| F_is_1 n : ends n 1 -> ~ ends2 n 11 -> form Icelandic n 0
| F_is n : ends_in n 2 9 \/ ends n 0 \/ ends2 n 11 -> form Icelandic n 1
| F_mk_1 n : ends n 1 -> form Macedonian n 0
| F_mk n : ends_in n 2 9 \/ ends n 0 -> form Macedonian n 1.
(** the form of all negative numbers *)
Definition negative_form (f : family) : Z :=
  match f with
  | Asian | French => 0
  | Germanic | Latvian | Icelandic | Macedonian => 1
  | Irish | Romanian | Lithuanian | Slavic | Czech | Polish | Welsh => 2
  | Slovenian => 3
  | Irish5 => 4
  | Arabic => 5
  end.
Definition form_of (f : family) (n j : Z) : Prop := (0 <= n /\ form f n j) \/ (n < 0 /\ j = negative_form f).

(** ** Texts of a rule: any blanks between its tokens, parentheses around any
    part of it, or missing where precedence makes up for them *)
Definition says (s : bytes) (f : family) : Prop :=
  exists e e0, wf_text s e /\ wf_text (rule_text f) e0 /\ erase e = erase e0.
