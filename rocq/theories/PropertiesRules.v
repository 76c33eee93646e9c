(** C103: the plural rules of the GNU manual. *)
From Verif Require Import GoStr GoStrFacts PluralModel PluralSpec PluralLexFacts PluralTextFacts FileModel FileSpec FormsFacts FileFacts
  PropertiesFile RulesSpec RulesFacts.
From Coq Require Import Lia ZifyBool ZifyNat ZifyN.
Local Open Scope Z_scope.

(** Every text of the rule of a language, in any layout and with any superfluous
    parentheses, gives each number the form the language uses for it ... *)
Theorem C103_form : forall s f n, says s f -> int64 n ->
  forall j, eval s n = EvOk j <-> form_of f n j.
Proof.
  intros s f n Y N j. rewrite form_of_iff, (says_eval s f n Y N). split; [intros [= H]; auto|intros ->; reflexivity].
Qed.
(** ... which is one of the announced forms ... *)
Theorem C103_range : forall f n, exists j, form_of f n j /\ 0 <= j < count f
  /\ forall j', form_of f n j' -> j' = j.
Proof.
  intros f n. exists (calc f n). split; [apply form_of_iff; reflexivity|]. split; [apply calc_range|].
  intros j'. apply form_of_iff.
Qed.
(** ... none of which is superfluous ... *)
Theorem C103_used : forall f j, 0 <= j < count f -> exists n, 0 <= n <= 100 /\ form f n j.
Proof.
  intros f j H. destruct (calc_onto f j H) as (n & R & E). exists n. split; [exact R|].
  apply form_iff; [lia|auto].
Qed.
(** ... so that a catalog with that rule and as many translations of the message
    as announced answers with the translation in that form, for every number. *)
Theorem C103_lookup : forall (A : Type) (fmt : bytes -> list A -> bytes) os f s c i i2 n args e,
  rule os (count f) s -> says s f -> int64 n ->
  last_def os c i e -> length (e_strn e) = Z.to_nat (count f) -> ~ In [] (e_strn e) ->
  exists j r, form_of f n j /\ nth_error (e_strn e) (Z.to_nat j) = Some r
    /\ fst (f_xn64 fmt (run fmt os) c i i2 n args) = XStr (fmt r args).
Proof.
  intros A fmt os f s c i i2 n args e R Y N L Len Ne. pose proof (calc_range f n) as Rg.
  destruct (nth_error (e_strn e) (Z.to_nat (calc f n))) as [r|] eqn:E.
  2:{ apply nth_error_None in E. lia. }
  exists (calc f n), r. split; [apply form_of_iff; reflexivity|]. split; [exact E|].
  apply (C09_selected A fmt os c i i2 n args e (count f) s (calc f n) r L R); auto.
  - apply says_eval; assumption.
  - intros ->. apply Ne. eapply nth_error_In, E.
Qed.
Print Assumptions C103_form.
Print Assumptions C103_range.
Print Assumptions C103_used.
Print Assumptions C103_lookup.

Lemma says_of s f : (exists e e0, parse_start (lex s) = POk e [] /\ parse_start (lex (rule_text f)) = POk e0 [] /\ erase e = erase e0
    /\ existsb (fun t => match t with KErr => true | _ => false end) (lex s) = false) -> says s f.
Proof.
  intros (e & e0 & P & P0 & E & N). exists e, e0. split; [apply wf_of; assumption|]. split; [|exact E].
  apply wf_of; [exact P0|]. clear. destruct f; vm_compute; reflexivity.
Qed.
Example C103_case_says : says (B "(n != (1))") Germanic
  /\ says (B "((n%10==1) && (n%100!=11)) ? 0 : (((n%10>=2) && (n%10<=4) && (n%100<10 || n%100>=20)) ? 1 : 2)") Slavic.
Proof.
  split; apply says_of; eexists; eexists; (split; [vm_compute; reflexivity|]; split; [vm_compute; reflexivity|];
    split; vm_compute; reflexivity).
Qed.
Example C103_case_form : form_of Slavic 121 0 /\ form_of Slavic 1012 2 /\ form_of Slavic (-1) 2 /\ form_of Arabic 203 3.
Proof.
  split; [|split; [|split]].
  - left. split; [lia|]. apply F_sl_1; [exists 12; lia|]. intros (q & _ & H). lia.
  - left. split; [lia|]. apply F_sl. right. right. exists 12. split; [lia|]. exists 10. lia.
  - right. split; [lia|reflexivity].
  - left. split; [lia|]. apply F_ar_few. exists 3. split; [lia|]. exists 2. lia.
Qed.
(** a Russian catalog *)
Definition ru_header : entry := ex_entry [] [] [] (B "Language: ru
Plural-Forms: nplurals=3; plural=(n%10==1 && n%100!=11 ? 0 : n%10>=2 && n%10<=4 && (n%100<10 || n%100>=20) ? 1 : 2);
") [].
Definition ru_file : entry := ex_entry [] (B "a file") (B "files") [] [B "fail"; B "faila"; B "failov"].
Definition ru_text : bytes := B "(n%10==1 && n%100!=11 ? 0 : n%10>=2 && n%10<=4 && (n%100<10 || n%100>=20) ? 1 : 2)".
Example C103_case_rule : rule [OAdd (A := nat) ru_header; OAdd ru_file] (count Slavic) ru_text /\ says ru_text Slavic
  /\ last_def [OAdd (A := nat) ru_header; OAdd ru_file] [] (B "a file") ru_file
  /\ length (e_strn ru_file) = Z.to_nat (count Slavic) /\ ~ In [] (e_strn ru_file).
Proof.
  split; [|split; [|split; [|split; [reflexivity|]]]].
  - exists (e_str ru_header), (B "nplurals=3; plural=" ++ ru_text ++ B ";"). split; [|split; [vm_compute; reflexivity|]].
    + apply (H_then [OAdd ru_header; OAdd ru_file] [] (OAdd ru_header) [OAdd ru_file]); [reflexivity| |reflexivity|].
      * intros [|x os1] o os2 E; discriminate E.
      * left. exists ru_header. split; [|reflexivity].
        exists [], (OAdd ru_header), []. split; [reflexivity|]. split; [split; reflexivity|]. intros ? ? [].
    + exists [], [], [], [], (B " "), [], [], []. split; [reflexivity|]. split; [vm_compute; split; discriminate|].
      split; [|split; [|split; [|split; [discriminate|left; reflexivity]]]].
      * intros b H c I. cbn in H. unfold FileSpec.blank.
        repeat (destruct H as [<-|H]; [cbn in I; first [destruct I as [<-|[]]; cbn; tauto | destruct I]|]). destruct H.
      * intros H. cbn in H. repeat (destruct H as [H|H]; [discriminate|]). exact H.
      * intros c t [= <- _] H. cbn in H. repeat (destruct H as [H|H]; [discriminate|]). exact H.
  - apply says_of. eexists. eexists. split; [vm_compute; reflexivity|]. split; [vm_compute; reflexivity|].
    split; vm_compute; reflexivity.
  - exists [OAdd ru_header], (OAdd ru_file), []. split; [reflexivity|]. split; [split; reflexivity|]. intros ? ? [].
  - intros H. cbn in H. repeat (destruct H as [H|H]; [discriminate|]). exact H.
Qed.
Example C103_case_lookup : map (fun n => fst (f_xn64 ex_fmt (run ex_fmt [OAdd ru_header; OAdd ru_file]) [] (B "a file") (B "files") n []))
    [1; 2; 5; 11; 12; 21; 22; 111; 0; -1]
  = map XStr [B "fail"; B "faila"; B "failov"; B "failov"; B "failov"; B "fail"; B "faila"; B "failov"; B "failov"; B "failov"].
Proof. vm_compute. reflexivity. Qed.
