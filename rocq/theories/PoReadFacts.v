(** Facts about the .po reader. *)
From Coq Require Import Lia.
From Verif Require Import GoStr GoStrFacts TrimFacts GoQuote GoMap GoMapFacts FileModel FileFacts PoModel.

Definition blank (l : bytes) : bool := is_empty (trim_space l).
Definition addif (pot : bool) (f : file) (e : entry) : file := if pot || is_valid e then add_entry f e else f.
(** the reader as one pass over the lines *)
Fixpoint mach (pot : bool) (f : file) (s : pstate) (e : entry) (lines : list bytes) : pores :=
  let fail := if pot then PoPanic else PoErr in
  match lines with
  | [] => PoOk (addif pot f e)
  | l :: r =>
      match line_action s e l with
      | ANext s' e' => mach pot f s' e' r
      | AUnget =>
          match line_action SNone zero_entry l with
          | ANext s' e' => mach pot (addif pot f e) s' e' r
          | AUnget => PoFuel
          | AErr => fail
          | APanic => PoPanic
          end
      | AErr => fail
      | APanic => PoPanic
      end
  end.

Lemma on_data_not_unget line p k : (forall d, k d <> AUnget) -> on_data line p k <> AUnget.
Proof. intros H. unfold on_data. destruct (remove_prefix_unquote line p); [apply H|discriminate]. Qed.
Lemma no_unget e l : line_action SNone e l <> AUnget.
Proof.
  unfold line_action. cbn [st_eqb negb equals_any existsb orb].
  repeat match goal with |- (if ?b then _ else _) <> _ => destruct b end; try discriminate;
    apply on_data_not_unget; discriminate.
Qed.

Lemma read_loop_mach pot : forall lines n f s e, length lines <= n ->
  match read_entry s e lines with
  | REof e' => PoOk (addif pot f e')
  | RNext e' rest => read_loop n pot (addif pot f e') rest
  | RErr => if pot then PoPanic else PoErr
  | RPanic => PoPanic
  end = mach pot f s e lines.
Proof.
  induction lines as [|l r IH]; intros n f s e Hn; [reflexivity|]. cbn [read_entry mach].
  cbn [length] in Hn. destruct (line_action s e l) as [s' e'| | |] eqn:E; try reflexivity.
  - apply IH. lia.
  - destruct n as [|n]; [lia|]. cbn [read_loop read_entry].
    pose proof (no_unget zero_entry l) as NU.
    destruct (line_action SNone zero_entry l) as [s' e'| | |]; try reflexivity; [|congruence].
    apply IH. lia.
Qed.
Theorem read_po_mach pot content : content <> [] ->
  read_po_ pot content = mach pot new_file SNone zero_entry (po_lines_of content).
Proof.
  intros H. destruct content as [|c t]; [congruence|]. unfold read_po_.
  rewrite <- read_loop_mach with (n := length (po_lines_of (c :: t))); [reflexivity|lia].
Qed.

(** ** Totality *)
Definition st_ok (s : pstate) (e : entry) : Prop := s = SStrN -> e_strn e <> [].
Lemma app_last_some l d : l <> [] -> exists l', app_last l d = Some l' /\ l' <> [].
Proof.
  induction l as [|x l IH]; intros H; [congruence|]. destruct l as [|y l].
  - exists [x ++ d]. split; [reflexivity|discriminate].
  - destruct IH as (l' & E & _); [discriminate|]. exists (x :: l'). cbn [app_last] in *. rewrite E. split; [reflexivity|discriminate].
Qed.
Lemma action_ok s e l : st_ok s e ->
  match line_action s e l with ANext s' e' => st_ok s' e' | APanic => False | _ => True end.
Proof.
  intros H. unfold line_action.
  destruct (is_empty _); [exact H|].
  destruct (has_prefix P_cmt l); [destruct (negb _); [exact I|intros E; apply H in E; exact E]|].
  destruct (has_prefix P_ctxt l); [destruct (negb _); [exact I|unfold on_data; destruct (remove_prefix_unquote _ _); [|exact I]; intros E; discriminate]|].
  destruct (has_prefix P_id2 l); [destruct (equals_any _ _); [exact I|unfold on_data; destruct (remove_prefix_unquote _ _); [|exact I]; intros E; discriminate]|].
  destruct (has_prefix P_id l); [destruct (equals_any _ _); [exact I|unfold on_data; destruct (remove_prefix_unquote _ _); [|exact I]; intros E; discriminate]|].
  destruct (has_prefix (P_strn _) l); [destruct (equals_any _ _); [exact I|unfold on_data; destruct (remove_prefix_unquote _ _); [|exact I]]|].
  { intros _. cbn. destruct (e_strn e); discriminate. }
  destruct (has_prefix P_str l); [destruct (equals_any _ _); [exact I|unfold on_data; destruct (remove_prefix_unquote _ _); [|exact I]; intros E; discriminate]|].
  destruct (has_prefix [DQ] l); [|exact I].
  unfold on_data; destruct (remove_prefix_unquote _ _) as [d|]; [|exact I].
  destruct s; try (intros E; discriminate).
  unfold app_strn. destruct (app_last_some (e_strn e) d (H eq_refl)) as (l' & -> & Hl). cbn [option_map].
  intros _. exact Hl.
Qed.
Lemma st_ok_zero : st_ok SNone zero_entry. Proof. intros E; discriminate. Qed.
(** the outcome of the two readers on the same lines *)
Definition outcomes (po pot : pores) : Prop :=
  (exists f f', po = PoOk f /\ pot = PoOk f') \/ (po = PoErr /\ pot = PoPanic).
Lemma mach_outcomes : forall lines f f' s e, st_ok s e ->
  outcomes (mach false f s e lines) (mach true f' s e lines).
Proof.
  induction lines as [|l r IH]; intros f f' s e H; cbn [mach]; [left; eauto|].
  pose proof (action_ok s e l H) as A. pose proof (action_ok _ _ l st_ok_zero) as A0.
  pose proof (no_unget zero_entry l) as NU.
  destruct (line_action s e l) as [s' e'| | |]; [apply IH, A| |right; auto|destruct A].
  destruct (line_action SNone zero_entry l) as [s' e'| | |]; [apply IH, A0|congruence|right; auto|destruct A0].
Qed.
Theorem read_outcomes content : content <> [] -> outcomes (read_po content) (read_pot content).
Proof.
  intros H. unfold read_po, read_pot. rewrite !read_po_mach by exact H. apply mach_outcomes, st_ok_zero.
Qed.

(** ** Blank lines *)
Lemma action_blank s e l : blank l = true -> line_action s e l = ANext s e.
Proof. unfold blank, line_action. intros ->. reflexivity. Qed.
Lemma mach_blank pot : forall lines f s e,
  mach pot f s e lines = mach pot f s e (filter (fun l => negb (blank l)) lines).
Proof.
  induction lines as [|l r IH]; intros f s e; [reflexivity|]. cbn [filter].
  destruct (blank l) eqn:E; cbn [negb].
  - cbn [mach]. rewrite action_blank by exact E. apply IH.
  - cbn [mach]. destruct (line_action s e l); [apply IH| |reflexivity..].
    destruct (line_action SNone zero_entry l); [apply IH|reflexivity..].
Qed.
Theorem read_blank pot c1 c2 : c1 <> [] -> c2 <> [] ->
  filter (fun l => negb (blank l)) (po_lines_of c1) = filter (fun l => negb (blank l)) (po_lines_of c2) ->
  read_po_ pot c1 = read_po_ pot c2.
Proof.
  intros H1 H2 E. rewrite !read_po_mach by assumption. rewrite mach_blank, E, <- mach_blank. reflexivity.
Qed.

(** ** Line ends *)
Fixpoint crlf (s : bytes) : bytes :=
  match s with
  | [] => []
  | c :: t => if Ascii.eqb c NL then CR :: NL :: crlf t else c :: crlf t
  end.
Lemma remove_crlf s : remove_byte CR (crlf s) = remove_byte CR s.
Proof.
  induction s as [|c t IH]; [reflexivity|]. cbn [crlf]. destruct (Ascii.eqb_spec c NL) as [->|N].
  - unfold remove_byte in *. cbn. f_equal. exact IH.
  - unfold remove_byte in *. cbn [filter]. rewrite IH. reflexivity.
Qed.
Theorem read_crlf pot s : read_po_ pot (crlf s) = read_po_ pot s.
Proof.
  destruct s as [|c t]; [reflexivity|].
  rewrite !read_po_mach; [|discriminate|cbn [crlf]; destruct (Ascii.eqb c NL); discriminate].
  unfold po_lines_of. rewrite remove_crlf. reflexivity.
Qed.

(** ** What is read is a history of additions *)
Definition built (f : file) : Prop := exists es, f = fold_left add_entry es new_file.
Lemma built_add f e : built f -> built (add_entry f e).
Proof. intros [es ->]. exists (es ++ [e]). rewrite fold_left_app. reflexivity. Qed.
Lemma built_addif pot f e : built f -> built (addif pot f e).
Proof. unfold addif. destruct (pot || is_valid e); [apply built_add|auto]. Qed.
Lemma mach_built pot : forall lines f s e f', built f -> mach pot f s e lines = PoOk f' -> built f'.
Proof.
  induction lines as [|l r IH]; intros f s e f' H; cbn [mach].
  - intros [= <-]. apply built_addif, H.
  - destruct (line_action s e l) as [s' e'| | |]; [apply IH, H| |destruct pot; discriminate|discriminate].
    destruct (line_action SNone zero_entry l) as [s' e'| | |];
      [apply IH, built_addif, H|discriminate|destruct pot; discriminate|discriminate].
Qed.
Theorem read_built pot content f : read_po_ pot content = PoOk f -> built f.
Proof.
  destruct content as [|c t]; [discriminate|]. rewrite read_po_mach by discriminate.
  apply mach_built. exists []. reflexivity.
Qed.
(** a built catalog with a language is completely initialised *)
Definition init_inv (f : file) : Prop :=
  (f_headers f = None /\ mget (key [] []) (f_entries f) = None) \/ (f_headers f <> None /\ f_plural f <> None).
Lemma init_inv_add f e : init_inv f -> init_inv (add_entry f e).
Proof.
  intros H. unfold add_entry. destruct (is_header e) eqn:Eh.
  - right. unfold init_plural, init_header. cbn.
    destruct (f_headers f) eqn:E1, (f_plural f) eqn:E2; cbn; rewrite ?E1, ?E2; cbn; split; congruence.
  - destruct H as [[H1 H2]|H]; [left|right; exact H]. cbn. split; [exact H1|].
    rewrite mget_put_other; [exact H2|]. unfold e_key, key. intros E.
    destruct (e_ctxt e) as [|x c]; cbn [app] in E.
    + injection E as E. unfold is_header in Eh. rewrite <- E in Eh. discriminate.
    + injection E as _ E. destruct c; discriminate.
Qed.
Lemma built_init f : built f -> init_inv f.
Proof.
  intros [es ->]. induction es as [|e es IH] using rev_ind; [left; split; reflexivity|].
  rewrite fold_left_app. apply init_inv_add, IH.
Qed.
Lemma built_lang f : built f -> fst (lang f) <> [] -> f_headers f <> None /\ f_plural f <> None.
Proof.
  intros Hb. destruct (built_init f Hb) as [[H1 H2]|H]; [|intros _; exact H]. intros L. exfalso. apply L.
  unfold lang, get_header, init_header. rewrite H1, H2. reflexivity.
Qed.
