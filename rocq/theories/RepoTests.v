(** The repository's own tests, run on the model: for every test of /repo whose
    subject is modelled, the inputs of the test and the outputs it expects.
    These are no properties, they are evidence that the model is the code: the
    expected values were observed on the running program.  In particular
    /repo/testdata/zh_CN_save.mo and /repo/testdata/messages.new.pot are files
    the program has written, and the model writes them byte for byte. *)
From Coq Require Import Lia ZArith NArith Permutation.
From Verif Require Import GoStr GoMap GoRegex PluralModel FileModel WrapModel PoModel MoModel SortFacts TransModel GlobalModel FsModel XtModel GoFmt.
Import ListNotations.
Local Open Scope Z_scope.

Definition N8 (l : list nat) : bytes := map ascii_of_nat l.
(** a printability table that is right for the characters of these tests *)
Definition t_isp (r : N) : bool := ((32 <=? r) && (r <? 127))%N || (0x2000 <=? r)%N.
(** fmt on the arguments of these tests that are not plain strings and numbers *)
Definition t_print (d : spec) (v : arg nat) : bytes :=
  match v with
  | VInt z => B "%!" ++ encode_rune (sp_verb d) ++ B "(int=" ++ dec_Z z ++ B ")"
  | VStr s => B "%!" ++ encode_rune (sp_verb d) ++ B "(string=" ++ s ++ B ")"
  | VOther _ => []
  end.
Definition t_int (v : arg nat) : option Z := match v with VInt z => Some z | _ => None end.
Definition t_fmt : bytes -> list (arg nat) -> bytes := format_f t_print t_int (fun _ => []).

(** ** f/format_test.go *)
(** TestFormat *)
Example test_format :
  map (fun p => t_fmt (fst p) (snd p))
    [ ([], []); (B "hello", []); (B "one apple", [VInt 1]); (B "%d apples", [VInt 2]); (B "%d apples", []);
      (B "%s have %[1]d apples", [VInt 1]); (B "%s have %d apples", [VStr (B "Tom")]);
      (B "%[2]s have %[1]d apples", [VInt 2; VStr (B "Tom")]); (B "%d 个苹果", [VInt 1]) ]
  = [ []; B "hello"; B "one apple"; B "2 apples"; B "%d apples";
      B "%!s(int=1) have 1 apples"; B "Tom have %!d(string=) apples"; B "Tom have 2 apples"; B "1 个苹果" ].
Proof. vm_compute. reflexivity. Qed.
(** TestDefaultPlural *)
Example test_default_plural :
  map (fun p => match p with (i, i2, n, args) => default_plural t_fmt i i2 n args end)
    [ (B "singular", B "plural", 1, []); (B "singular", B "plural", 0, []); (B "singular", B "plural", 2, []);
      (B "one apple", B "%d apples", 1, [VInt 1]); (B "one apple", B "%d apples", 2, [VInt 2]) ]
  = [ B "singular"; B "plural"; B "plural"; B "one apple"; B "2 apples" ].
Proof. vm_compute. reflexivity. Qed.

(** ** plurals/exp_test.go *)
(** okCase, the first part, and myCase *)
Example test_eval :
  map (fun p => eval (fst p) (snd p))
    [ (B "0", 0);
      (B "0", 1);
      (B "0", 2);
      (B "n != 1", 0);
      (B "n != 1", 1);
      (B "n != 1", 2);
      (B "n > 1", 1);
      (B "n > 1", 2);
      (B "n > 1", 0);
      (B "n==1 ? 0 : n==2 ? 1 : 2", 0);
      (B "n==1 ? 0 : n==2 ? 1 : 2", 1);
      (B "n==1 ? 0 : n==2 ? 1 : 2", 2);
      (B "n==1 ? 0 : n==2 ? 1 : 2", 3);
      (B "n++", 0);
      (B "n++", 1);
      (B "n--", 1);
      (B "+n", 1);
      (B "-n", 1);
      (B "++n", 1);
      (B "--n", 1);
      (B "~n", 1);
      (B "!n", 1);
      (B "n*1", 1);
      (B "n/1", 1);
      (B "n%1", 1);
      (B "n+1", 0);
      (B "n-1", 1);
      (B "n>>1", 1);
      (B "n<<1", 1);
      (B "n<1", 1);
      (B "n>1", 1);
      (B "n>=1", 1);
      (B "n<=1", 1);
      (B "n==1", 1);
      (B "n!=1", 1);
      (B "n&1", 1);
      (B "n|1", 1);
      (B "n^1", 1);
      (B "n||1", 0);
      (B "n&&1", 0);
      (B "n&&1", 1);
      (B "n==1?1:0", 1);
      (B "n==1?1:0", 2);
      (B "0", 100);
      (B "n", 100);
      (B "(n)", 100);
      (B "!1", 100) ]
  = [ EvOk 0; EvOk 0; EvOk 0; EvOk 1; EvOk 0; EvOk 1; EvOk 0; EvOk 1; EvOk 0; EvOk 2; EvOk 0; EvOk 1; EvOk 2; EvOk 1; EvOk 2; EvOk 0; EvOk 1; EvOk (-1); EvOk 2; EvOk 0; EvOk (-2); EvOk 0; EvOk 1; EvOk 1; EvOk 0; EvOk 1; EvOk 0; EvOk 0; EvOk 2; EvOk 0; EvOk 0; EvOk 1; EvOk 1; EvOk 1; EvOk 0; EvOk 1; EvOk 1; EvOk 1; EvOk 1; EvOk 0; EvOk 1; EvOk 1; EvOk 0; EvOk 0; EvOk 100; EvOk 100; EvOk 0 ].
Proof. vm_compute. reflexivity. Qed.
(** okCase, the loops, and some of it by the general part of the evaluator (all
    numbers: C02 to C05) *)
Definition t_numbers : list Z := map Z.of_nat (seq 0 215).
Definition t_rules : list (bytes * (Z -> Z)) :=
  [ (B "n%10==1 && n%100!=11 ? 0 : n != 0 ? 1 : 2", fun n => if (n mod 10 =? 1) && negb (n mod 100 =? 11) then 0 else if negb (n =? 0) then 1 else 2);
    (B "n==1 ? 0 : (n==0 || (n%100 > 0 && n%100 < 20)) ? 1 : 2", fun n => if n =? 1 then 0 else if (n =? 0) || ((0 <? n mod 100) && (n mod 100 <? 20)) then 1 else 2);
    (B "n%10==1 && n%100!=11 ? 0 : n%10>=2 && (n%100<10 || n%100>=20) ? 1 : 2", fun n => if (n mod 10 =? 1) && negb (n mod 100 =? 11) then 0 else if (2 <=? n mod 10) && ((n mod 100 <? 10) || (20 <=? n mod 100)) then 1 else 2);
    (B "n%10==1 && n%100!=11 ? 0 : n%10>=2 && n%10<=4 && (n%100<10 || n%100>=20) ? 1 : 2", fun n => if (n mod 10 =? 1) && negb (n mod 100 =? 11) then 0 else if (2 <=? n mod 10) && (n mod 10 <=? 4) && ((n mod 100 <? 10) || (20 <=? n mod 100)) then 1 else 2);
    (B "(n==1) ? 0 : (n>=2 && n<=4) ? 1 : 2", fun n => if n =? 1 then 0 else if (2 <=? n) && (n <=? 4) then 1 else 2);
    (B "n==1 ? 0 :  n%10>=2 && n%10<=4 && (n%100<10 || n%100>=20) ? 1 : 2", fun n => if n =? 1 then 0 else if (2 <=? n mod 10) && (n mod 10 <=? 4) && ((n mod 100 <? 10) || (20 <=? n mod 100)) then 1 else 2);
    (B "n%100==1 ? 0 : n%100==2 ? 1 : n%100==3 || n%100==4 ? 2 : 3", fun n => if n mod 100 =? 1 then 0 else if n mod 100 =? 2 then 1 else if (n mod 100 =? 3) || (n mod 100 =? 4) then 2 else 3);
    (B " n==0 ? 0 : n==1 ? 1 : n==2 ? 2 : n%100>=3 && n%100<=10 ? 3  : n%100>=11 ? 4 : 5", fun n => if n =? 0 then 0 else if n =? 1 then 1 else if n =? 2 then 2 else if (3 <=? n mod 100) && (n mod 100 <=? 10) then 3 else if 11 <=? n mod 100 then 4 else 5) ].
Example test_eval_rules : forallb (fun r => forallb (fun n => match eval (fst r) n with EvOk v => v =? snd r n | _ => false end) t_numbers) t_rules = true.
Proof. vm_compute. reflexivity. Qed.
Example test_eval_rules_general :
  forallb (fun r => forallb (fun n => match eval_general (fst r) n with EvOk v => v =? snd r n | _ => false end) [0; 1; 2; 4; 11; 100; 103; 214]) t_rules = true.
Proof. vm_compute. reflexivity. Qed.
(** errCase and TestEval2 *)
Example test_eval_errors : eval [] 0 = EvErr /\ eval (B "nn") 1 = EvOk 1.
Proof. vm_compute. split; reflexivity. Qed.

(** ** translator/wrap_test.go *)
(** Test_split *)
Example test_split :
  map (fun p => split (fst p) (snd p))
    [ (B "", 10); (B "0123456789", 10); (B "0123456789", 5); (B " 0123456789", 5); (B "0 123456789", 5); (B "01 23456789", 5); (B "012 3456789", 5); (B "0123 456789", 5); (B "01234 56789", 5); (B "012345 6789", 5); (B "0123456 789", 5); (B "01234567 89", 5); (B "012345678 9", 5); (B "0123456789 ", 5); (B "0123456789  ", 5); (B "0123456789
", 5); (B "0123456789

", 5); (B "012345678
9", 5); (B "01234567
89", 5); (B "0123456
789", 5); (B "012345
6789", 5); (B "01234
56789", 5); (B "0123
456789", 5); (B "012
3456789", 5); (B "01
23456789", 5); (B "0
123456789", 5); (B "
0123456789", 5); (B "01234
56789", 15); (B "01234
56789
01234", 5) ]
  = map Some
    [ [B ""]; [B "0123456789"]; [B "0123456789"]; [B " "; B "0123456789"]; [B "0 "; B "123456789"]; [B "01 "; B "23456789"]; [B "012 "; B "3456789"]; [B "0123 "; B "456789"]; [B "01234 "; B "56789"]; [B "012345 "; B "6789"]; [B "0123456 "; B "789"]; [B "01234567 "; B "89"]; [B "012345678 "; B "9"]; [B "0123456789 "]; [B "0123456789  "]; [B "0123456789
"]; [B ""; B "0123456789
"; B "
"]; [B ""; B "012345678
"; B "9"]; [B ""; B "01234567
"; B "89"]; [B ""; B "0123456
"; B "789"]; [B ""; B "012345
"; B "6789"]; [B ""; B "01234
"; B "56789"]; [B ""; B "0123
"; B "456789"]; [B ""; B "012
"; B "3456789"]; [B ""; B "01
"; B "23456789"]; [B ""; B "0
"; B "123456789"]; [B ""; B "
"; B "0123456789"]; [B ""; B "01234
"; B "56789"]; [B ""; B "01234
"; B "56789
"; B "01234"] ].
Proof. vm_compute. reflexivity. Qed.

(** ** translator/po_test.go, pot_test.go, mo_test.go, file_test.go *)
Definition t_file (l : list entry) : file := {| f_entries := map (fun e => (e_key e, e)) l; f_headers := None; f_plural := None |}.
Definition t_entry (cmts : list bytes) (ctxt id : bytes) (plural : bool) (id2 str : bytes) (strn : list bytes) : entry :=
  {| e_cmts := cmts; e_ctxt := ctxt; e_id := id; e_plural := plural; e_id2 := id2; e_str := str; e_strn := strn |}.
Definition t_po (f : file) : bytes := concat (map (po_entry t_isp) (isort (vals (f_entries f)))).
Definition t_pot (f : file) : bytes := concat (map (pot_entry t_isp) (isort (vals (f_entries f)))).
Definition t_mo (f : file) : bytes := mo_bytes (isort (vals (f_entries f))).
(** what these three compute is what saving may write *)
Lemma t_saves f : saves_po t_isp f (t_po f) /\ saves_pot t_isp f (t_pot f) /\ saves_mo f (t_mo f).
Proof.
  destruct (isort_sorted (vals (f_entries f))) as [P S].
  split; [|split]; exists (isort (vals (f_entries f))); (split; [split; assumption|reflexivity]).
Qed.
Definition t_header : entry := t_entry [] [] [] false [] (B "Project-Id-Version: MyProject
Language: zh_CN
Content-Type: text/plain; charset=UTF-8
Content-Transfer-Encoding: 8bit
Plural-Forms: nplurals=1; plural=0;
") [].
Definition t_header_text : bytes := B "msgid """"
msgstr """"
""Project-Id-Version: MyProject\n""
""Language: zh_CN\n""
""Content-Type: text/plain; charset=UTF-8\n""
""Content-Transfer-Encoding: 8bit\n""
""Plural-Forms: nplurals=1; plural=0;\n""

".
Definition t_project : entry := t_entry [] [] [] false [] (B "Project-Id-Version: MyProject
") [].
Definition t_cmts : list bytes := [B "# translators comment"; B "#: path/to/source"].
Definition t_hello : entry := t_entry t_cmts [] (B "hello") false [] (B "你好") [].
Definition t_apple : entry := t_entry t_cmts (B "ctx") (B "one apple") true (B "%d apples") [] [B "%d 个苹果"].
(** TestFile_SaveAsPo *)
Example test_save_po : map (fun l => t_po (t_file l)) [ []; [t_project]; [t_header]; [t_hello]; [t_project; t_apple] ]
  = [ [];
      B "msgid """"
msgstr ""Project-Id-Version: MyProject\n""

"; t_header_text;
      B "# translators comment
#: path/to/source
msgid ""hello""
msgstr ""你好""

"; B "msgid """"
msgstr ""Project-Id-Version: MyProject\n""

# translators comment
#: path/to/source
msgctxt ""ctx""
msgid ""one apple""
msgid_plural ""%d apples""
msgstr[0] ""%d 个苹果""

" ].
Proof. vm_compute. reflexivity. Qed.
(** TestFile_SaveAsPot *)
Definition t_apple_pot : bytes := B "# translators comment
#: path/to/source
msgctxt ""ctx""
msgid ""one apple""
msgid_plural ""%d apples""
msgstr[0] """"
msgstr[1] """"

".
Example test_save_pot :
  map (fun l => t_pot (t_file l))
    [ []; [t_header]; [t_hello]; [t_apple]; [t_header; t_apple]; [t_entry [B "#: test.go:42"] [] (B "%d 个苹果") true [] [] []] ]
  = [ []; t_header_text; B "# translators comment
#: path/to/source
msgid ""hello""
msgstr """"

"; t_apple_pot; t_header_text ++ t_apple_pot; B "#: test.go:42
msgid ""%d 个苹果""
msgid_plural """"
msgstr[0] """"
msgstr[1] """"

" ].
Proof. vm_compute. reflexivity. Qed.
(** Test_readEntry.  The test wants an error beside an entry when the lines end
    ([REof]) and none when the next entry begins ([RNext], with the line that
    was put back) *)
Example test_read_entry :
  map (read_entry SNone zero_entry)
    [ [];
      [B ""];
      [B "msgid ""hello"""; B "msgstr ""你好"""];
      [B "msgid ""hello"""; B "msgstr[0] ""你好"""];
      [B "msgid ""hello"""; B "msgstr ""你好"""; B "msgid ""entry 2"];
      [B "# bla bla"; B "msgstr ""你好"""];
      [B "# bla bla"; B "msgstr ""你好"""; B "#abc"];
      [B "msgctxt ""ctxt"""; B "msgstr ""你好"""];
      [B "msgctxt ctxt"; B "msgstr ""你好"""];
      [B "msgctxt ""ctxt"""; B "msgctxt ""你好"""];
      [B "msgid_plural ""ctxt"""; B "msgid_plural ""你好"""];
      [B "msgid_plural id2"; B "msgid_plural ""你好"""];
      [B "msgid id2"; B "msgid_plural ""你好"""];
      [B "msgstr[0] ""str0"""; B "msgstr[1] ""str1"""];
      [B "msgstr[0] ""str0"""; B "msgstr ""str"""];
      [B "msgstr[0] str0"];
      [B "msgstr ""str"""];
      [B "msgstr str"];
      [B "msgstr ""str"""; B "msgstr[0] ""str0"""];
      [B "msgctxt ""line1"""; B """line2"""];
      [B "msgid ""line1"""; B """line2"""];
      [B "msgid_plural ""line1"""; B """line2"""];
      [B "msgstr ""line1"""; B """line2"""];
      [B "msgstr[0] ""line1"""; B """line2"""];
      [B "msgctxt ""line1"""; B """line2"];
      [B "msgctxt ""line1"""; B "line2"];
      [B "msgid """""; B "msgstr """""; B """Project-Id-Version: t\n"""];
      [B "#, c-format"; B "msgctxt ""Project|"""; B "msgid ""Open One"""; B "msgid_plural ""Open %d"""; B "msgstr[0] ""打开 %d 个工程"""];
      [B "#, c-format"; B "msgctxt ""Project|"""; B "msgid ""Open One"""; B "msgid_plural ""Open %d"""; B "msgstr ""打开"""; B "msgstr[0] ""打开 %d 个工程"""] ]
  = [ REof (t_entry [] (B "") (B "") false (B "") (B "") []);
      REof (t_entry [] (B "") (B "") false (B "") (B "") []);
      REof (t_entry [] (B "") (B "hello") false (B "") (B "你好") []);
      REof (t_entry [] (B "") (B "hello") false (B "") (B "") [B "你好"]);
      RNext (t_entry [] (B "") (B "hello") false (B "") (B "你好") []) [B "msgid ""entry 2"];
      REof (t_entry [B "# bla bla"] (B "") (B "") false (B "") (B "你好") []);
      RNext (t_entry [B "# bla bla"] (B "") (B "") false (B "") (B "你好") []) [B "#abc"];
      REof (t_entry [] (B "ctxt") (B "") false (B "") (B "你好") []);
      RErr;
      RNext (t_entry [] (B "ctxt") (B "") false (B "") (B "") []) [B "msgctxt ""你好"""];
      RNext (t_entry [] (B "") (B "") true (B "ctxt") (B "") []) [B "msgid_plural ""你好"""];
      RErr;
      RErr;
      REof (t_entry [] (B "") (B "") false (B "") (B "") [B "str0"; B "str1"]);
      RNext (t_entry [] (B "") (B "") false (B "") (B "") [B "str0"]) [B "msgstr ""str"""];
      RErr;
      REof (t_entry [] (B "") (B "") false (B "") (B "str") []);
      RErr;
      RNext (t_entry [] (B "") (B "") false (B "") (B "str") []) [B "msgstr[0] ""str0"""];
      REof (t_entry [] (B "line1line2") (B "") false (B "") (B "") []);
      REof (t_entry [] (B "") (B "line1line2") false (B "") (B "") []);
      REof (t_entry [] (B "") (B "") true (B "line1line2") (B "") []);
      REof (t_entry [] (B "") (B "") false (B "") (B "line1line2") []);
      REof (t_entry [] (B "") (B "") false (B "") (B "") [B "line1line2"]);
      RErr;
      RErr;
      REof (t_entry [] (B "") (B "") false (B "") (B "Project-Id-Version: t
") []);
      REof (t_entry [B "#, c-format"] (B "Project|") (B "Open One") true (B "Open %d") (B "") [B "打开 %d 个工程"]);
      RNext (t_entry [B "#, c-format"] (B "Project|") (B "Open One") true (B "Open %d") (B "打开") []) [B "msgstr[0] ""打开 %d 个工程"""] ].
Proof. vm_compute. reflexivity. Qed.
(** TestReadPo *)
Definition t_world : entry := t_entry [B "#: lang_test.go:22 lang_test.go:23 main_test.go:37"] [] (B "Hello, World") false [] (B "你好，世界") [].
Definition t_apple2 : entry := t_entry [] [] (B "one apple") true (B "%d apples") [] [B "%d 个苹果"].
Definition t_post : entry := t_entry [] (B "verb") (B "Post") false [] (B "发布") [].
Example test_read_po :
  read_po [] = PoErr /\ read_po (B "#: lang_test.go:22 lang_test.go:23 main_test.go:37
msgid ""Hello, World""
msgstr ""你好，世界""") = PoOk (t_file [t_world])
  /\ read_po (B "#: lang_test.go:22 lang_test.go:23 main_test.go:37
msgid ""Hello, World""
msgstr ""你好，世界""

msgid ""one apple""
msgid_plural ""%d apples""
msgstr[0] ""%d 个苹果""
") = PoOk (t_file [t_world; t_apple2])
  /\ read_po (B "#: lang_test.go:22 lang_test.go:23 main_test.go:37
msgid ""Hello, World""
msgstr ""你好，世界""

msgid ""one apple""
msgid_plural ""%d apples""
msgstr[0] ""%d 个苹果""

msgctxt ""verb""
msgid ""Post""
msgstr ""发布""
") = PoOk (t_file [t_world; t_apple2; t_post])
  /\ read_po (B "msgid hallo") = PoErr.
Proof. vm_compute. repeat split; reflexivity. Qed.
(** testdata/zh_CN.mo (written by msgfmt), zh_CN_save.mo (written by the test from
    it), messages.pot, messages.new.pot (written by the test from it), zh_CN.po *)
Definition zh_CN_mo : bytes := Eval vm_compute in
  N8 [222; 18; 4; 149; 0; 0; 0; 0; 8; 0; 0; 0; 28; 0; 0; 0]%nat
  ++ B "\"
  ++ N8 [0; 0; 0; 11; 0; 0; 0; 156; 0; 0; 0; 0; 0; 0; 0; 200; 0; 0; 0]%nat
  ++ B "
"
  ++ N8 [0; 0; 0; 201; 0; 0; 0; 22; 0; 0; 0; 212; 0; 0; 0; 9; 0; 0; 0; 235; 0; 0; 0; 12; 0; 0; 0; 245; 0; 0; 0; 19; 0; 0; 0; 2; 1; 0; 0; 13; 0; 0; 0; 22; 1; 0; 0; 25; 0; 0; 0]%nat
  ++ B "$"
  ++ N8 [1; 0; 0; 17; 2; 0; 0]%nat
  ++ B ">"
  ++ N8 [1; 0; 0; 12; 0; 0; 0]%nat
  ++ B "P"
  ++ N8 [3; 0; 0; 19; 0; 0; 0]%nat
  ++ B "]"
  ++ N8 [3; 0; 0; 11; 0; 0; 0]%nat
  ++ B "q"
  ++ N8 [3; 0; 0; 15; 0; 0; 0]%nat
  ++ B "}"
  ++ N8 [3; 0; 0; 12; 0; 0; 0; 141; 3; 0; 0; 12; 0; 0; 0; 154; 3; 0; 0; 19; 0; 0; 0; 167; 3; 0; 0; 1; 0; 0; 0; 0; 0; 0; 0; 2; 0; 0; 0; 5; 0; 0; 0; 7; 0; 0; 0; 3; 0; 0; 0; 6; 0; 0; 0; 4; 0; 0; 0; 0; 0; 0; 0; 8; 0; 0; 0; 0; 0; 0; 0; 0]%nat
  ++ B "File|"
  ++ N8 [4]%nat
  ++ B "Open"
  ++ N8 [0]%nat
  ++ B "File|"
  ++ N8 [4]%nat
  ++ B "Open One"
  ++ N8 [0]%nat
  ++ B "Open %d"
  ++ N8 [0]%nat
  ++ B "Hello, %s"
  ++ N8 [0]%nat
  ++ B "Hello, World"
  ++ N8 [0]%nat
  ++ B "One apple"
  ++ N8 [0]%nat
  ++ B "%d apples"
  ++ N8 [0]%nat
  ++ B "Project|"
  ++ N8 [4]%nat
  ++ B "Open"
  ++ N8 [0]%nat
  ++ B "Project|"
  ++ N8 [4]%nat
  ++ B "Open One"
  ++ N8 [0]%nat
  ++ B "Open %d"
  ++ N8 [0]%nat
  ++ B "Project-Id-Version: testdata of github.com/youthlin/t
PO-Revision-Date: 2021-08-24 13:45+0800
Last-Translator: Lin <youthlinchen@outlook.com>
Language-Team: https://youthlin.com/
Language: zh_CN
MIME-Version: 1.0
Content-Type: text/plain; charset=UTF-8
Content-Transfer-Encoding: 8bit
X-Generator: Poedit 2.4.2
X-Poedit-Basepath: ..
Plural-Forms: nplurals=1; plural=0;
X-Poedit-KeywordsList: T:1;N:1,2;N64:1,2;X:2,1c;XN:2,3,1c;XN64:2,3,1c
X-Poedit-SourceCharset: UTF-8
X-Poedit-SearchPath-0: .
X-Poedit-SearchPathExcluded-0: cmd
"
  ++ N8 [0; 230; 137; 147; 229; 188; 128; 230; 150; 135; 228; 187; 182; 0; 230; 137; 147; 229; 188; 128]%nat
  ++ B " %d "
  ++ N8 [228; 184; 170; 230; 150; 135; 228; 187; 182; 0; 228; 189; 160; 229; 165; 189; 239; 188; 140]%nat
  ++ B "%s"
  ++ N8 [0; 228; 189; 160; 229; 165; 189; 239; 188; 140; 228; 184; 150; 231; 149; 140; 0]%nat
  ++ B "%d "
  ++ N8 [228; 184; 170; 232; 139; 185; 230; 158; 156; 0; 230; 137; 147; 229; 188; 128; 229; 183; 165; 231; 168; 139; 0; 230; 137; 147; 229; 188; 128]%nat
  ++ B " %d "
  ++ N8 [228; 184; 170; 229; 183; 165; 231; 168; 139; 0]%nat.
Definition zh_CN_save_mo : bytes := Eval vm_compute in
  N8 [222; 18; 4; 149; 0; 0; 0; 0; 8; 0; 0; 0]%nat
  ++ B "K"
  ++ N8 [0; 0; 0; 139; 0; 0; 0; 0; 0; 0; 0; 0; 0; 0; 0]%nat
  ++ B "+"
  ++ N8 [0; 0; 0]%nat
  ++ B "ThisFileIsGenerateBy:github.com/youthlin/t"
  ++ N8 [0; 0; 0; 0; 0; 203; 0; 0; 0; 9; 0; 0; 0; 204; 0; 0; 0; 12; 0; 0; 0; 214; 0; 0; 0; 19; 0; 0; 0; 227; 0; 0; 0]%nat
  ++ B "
"
  ++ N8 [0; 0; 0; 247; 0; 0; 0; 22; 0; 0; 0; 2; 1; 0; 0; 13; 0; 0; 0; 25; 1; 0; 0; 25; 0; 0; 0]%nat
  ++ B "'"
  ++ N8 [1; 0; 0; 17; 2; 0; 0]%nat
  ++ B "A"
  ++ N8 [1; 0; 0; 11; 0; 0; 0]%nat
  ++ B "S"
  ++ N8 [3; 0; 0; 15; 0; 0; 0]%nat
  ++ B "_"
  ++ N8 [3; 0; 0; 12; 0; 0; 0]%nat
  ++ B "o"
  ++ N8 [3; 0; 0; 12; 0; 0; 0]%nat
  ++ B "|"
  ++ N8 [3; 0; 0; 19; 0; 0; 0; 137; 3; 0; 0; 12; 0; 0; 0; 157; 3; 0; 0; 19; 0; 0; 0; 170; 3; 0; 0; 0]%nat
  ++ B "Hello, %s"
  ++ N8 [0]%nat
  ++ B "Hello, World"
  ++ N8 [0]%nat
  ++ B "One apple"
  ++ N8 [0]%nat
  ++ B "%d apples"
  ++ N8 [0]%nat
  ++ B "File|"
  ++ N8 [4]%nat
  ++ B "Open"
  ++ N8 [0]%nat
  ++ B "File|"
  ++ N8 [4]%nat
  ++ B "Open One"
  ++ N8 [0]%nat
  ++ B "Open %d"
  ++ N8 [0]%nat
  ++ B "Project|"
  ++ N8 [4]%nat
  ++ B "Open"
  ++ N8 [0]%nat
  ++ B "Project|"
  ++ N8 [4]%nat
  ++ B "Open One"
  ++ N8 [0]%nat
  ++ B "Open %d"
  ++ N8 [0]%nat
  ++ B "Project-Id-Version: testdata of github.com/youthlin/t
PO-Revision-Date: 2021-08-24 13:45+0800
Last-Translator: Lin <youthlinchen@outlook.com>
Language-Team: https://youthlin.com/
Language: zh_CN
MIME-Version: 1.0
Content-Type: text/plain; charset=UTF-8
Content-Transfer-Encoding: 8bit
X-Generator: Poedit 2.4.2
X-Poedit-Basepath: ..
Plural-Forms: nplurals=1; plural=0;
X-Poedit-KeywordsList: T:1;N:1,2;N64:1,2;X:2,1c;XN:2,3,1c;XN64:2,3,1c
X-Poedit-SourceCharset: UTF-8
X-Poedit-SearchPath-0: .
X-Poedit-SearchPathExcluded-0: cmd
"
  ++ N8 [0; 228; 189; 160; 229; 165; 189; 239; 188; 140]%nat
  ++ B "%s"
  ++ N8 [0; 228; 189; 160; 229; 165; 189; 239; 188; 140; 228; 184; 150; 231; 149; 140; 0]%nat
  ++ B "%d "
  ++ N8 [228; 184; 170; 232; 139; 185; 230; 158; 156; 0; 230; 137; 147; 229; 188; 128; 230; 150; 135; 228; 187; 182; 0; 230; 137; 147; 229; 188; 128]%nat
  ++ B " %d "
  ++ N8 [228; 184; 170; 230; 150; 135; 228; 187; 182; 0; 230; 137; 147; 229; 188; 128; 229; 183; 165; 231; 168; 139; 0; 230; 137; 147; 229; 188; 128]%nat
  ++ B " %d "
  ++ N8 [228; 184; 170; 229; 183; 165; 231; 168; 139; 0]%nat.
Definition messages_pot : bytes := B "# SOME DESCRIPTIVE TITLE.
# Copyright (C) YEAR THE PACKAGE'S COPYRIGHT HOLDER
# This file is distributed under the same license as the PACKAGE package.
# FIRST AUTHOR <EMAIL@ADDRESS>, YEAR.
#
#, fuzzy
msgid """"
msgstr """"
""Project-Id-Version: PACKAGE VERSION\n""
""Report-Msgid-Bugs-To: \n""
""POT-Creation-Date: 2024-01-05 16:04:11+0800\n""
""PO-Revision-Date: YEAR-MO-DA HO:MI+ZONE\n""
""Last-Translator: FULL NAME <EMAIL@ADDRESS>\n""
""Language-Team: LANGUAGE <LL@li.org>\n""
""Language: \n""
""MIME-Version: 1.0\n""
""Content-Type: text/plain; charset=UTF-8\n""
""Content-Transfer-Encoding: 8bit\n""
""Plural-Forms: nplurals=INTEGER; plural=EXPRESSION;\n""
""X-Created-By: xtpl(https://github.com/pub-go/tpl/tree/main/cmd/xtpl)\n""
""X-xTpl-Path: .\n""
""X-xTpl-Pattern: .*\\.html\n""
""X-xTpl-Keywords: T;N:1,2;N64:1,2;X:1c,2;XN:1c,2,3;XN64:1c,2,3;__;_n:1,2;_x:1c,2;_xn:1c,2,3\n""
""X-xTpl-Output: testdata/messages.pot\n""

#: testdata/index.html:11:23
msgid ""And you?""
msgstr """"

#: testdata/index.html:12:20
msgid ""Hello, %s""
msgstr """"

#: testdata/index.html:9:21
msgid ""How are you?""
msgstr """"

#: testdata/index.html:15:20
msgid ""One Apple""
msgid_plural ""%d Apples""
msgstr[0] """"
msgstr[1] """"

#: testdata/index.html:6:24
msgid ""Title""
msgstr """"

#: testdata/index.html:16:28
msgctxt ""ctx""
msgid ""One Book""
msgid_plural ""%d Books""
msgstr[0] """"
msgstr[1] """"

#: testdata/index.html:13:32
msgctxt ""post new""
msgid ""Post""
msgstr """"

#: testdata/index.html:14:29
msgctxt ""posts""
msgid ""Post""
msgstr """"

".
Definition messages_new_pot : bytes := B "# SOME DESCRIPTIVE TITLE.
# Copyright (C) YEAR THE PACKAGE'S COPYRIGHT HOLDER
# This file is distributed under the same license as the PACKAGE package.
# FIRST AUTHOR <EMAIL@ADDRESS>, YEAR.
#
#, fuzzy
msgid """"
msgstr """"
""Project-Id-Version: PACKAGE VERSION\n""
""Report-Msgid-Bugs-To: \n""
""POT-Creation-Date: 2024-01-05 16:04:11+0800\n""
""PO-Revision-Date: YEAR-MO-DA HO:MI+ZONE\n""
""Last-Translator: FULL NAME <EMAIL@ADDRESS>\n""
""Language-Team: LANGUAGE <LL@li.org>\n""
""Language: \n""
""MIME-Version: 1.0\n""
""Content-Type: text/plain; charset=UTF-8\n""
""Content-Transfer-Encoding: 8bit\n""
""Plural-Forms: nplurals=INTEGER; plural=EXPRESSION;\n""
""X-Created-By: xtpl(https://github.com/pub-go/tpl/tree/main/cmd/xtpl)\n""
""X-xTpl-Path: .\n""
""X-xTpl-Pattern: .*\\.html\n""
""X-xTpl-Keywords: T;N:1,2;N64:1,2;X:1c,2;XN:1c,2,3;XN64:1c,2,3;__;_n:1,2;_x:1c,2;_xn:1c,2,3\n""
""X-xTpl-Output: testdata/messages.pot\n""

#: testdata/index.html:6:24
msgid ""Title""
msgstr """"

#: testdata/index.html:9:21
msgid ""How are you?""
msgstr """"

#: testdata/index.html:11:23
msgid ""And you?""
msgstr """"

#: testdata/index.html:12:20
msgid ""Hello, %s""
msgstr """"

#: testdata/index.html:13:32
msgctxt ""post new""
msgid ""Post""
msgstr """"

#: testdata/index.html:14:29
msgctxt ""posts""
msgid ""Post""
msgstr """"

#: testdata/index.html:15:20
msgid ""One Apple""
msgid_plural ""%d Apples""
msgstr[0] """"
msgstr[1] """"

#: testdata/index.html:16:28
msgctxt ""ctx""
msgid ""One Book""
msgid_plural ""%d Books""
msgstr[0] """"
msgstr[1] """"

".
Definition zh_CN_po : bytes := B "msgid """"
msgstr """"
""Project-Id-Version: testdata of github.com/youthlin/t\n""
""POT-Creation-Date: 2021-08-24 13:45+0800\n""
""PO-Revision-Date: 2021-08-24 13:45+0800\n""
""Last-Translator: Lin <youthlinchen@outlook.com>\n""
""Language-Team: https://youthlin.com/\n""
""Language: zh_CN\n""
""MIME-Version: 1.0\n""
""Content-Type: text/plain; charset=UTF-8\n""
""Content-Transfer-Encoding: 8bit\n""
""X-Generator: Poedit 2.4.2\n""
""X-Poedit-Basepath: ..\n""
""Plural-Forms: nplurals=1; plural=0;\n""
""X-Poedit-KeywordsList: T:1;N:1,2;N64:1,2;X:2,1c;XN:2,3,1c;XN64:2,3,1c\n""
""X-Poedit-SourceCharset: UTF-8\n""
""X-Poedit-SearchPath-0: .\n""
""X-Poedit-SearchPathExcluded-0: cmd\n""

#: example_test.go:28 example_test.go:40 example_test.go:56 example_test.go:67
#: example_test.go:72 example_test.go:114 example_test.go:116
#: example_test.go:128
msgid ""Hello, World""
msgstr ""你好，世界""

#: example_test.go:96
msgid ""你好，世界""
msgstr """"

#: example_test.go:129
#, c-format
msgid ""Hello, %s""
msgstr ""你好，%s""

#: example_test.go:130 example_test.go:131 example_test.go:132
#: example_test.go:133
#, c-format
msgid ""One apple""
msgid_plural ""%d apples""
msgstr[0] ""%d 个苹果""

#: example_test.go:135
msgctxt ""File|""
msgid ""Open""
msgstr ""打开文件""

#: example_test.go:136
msgctxt ""Project|""
msgid ""Open""
msgstr ""打开工程""

#: example_test.go:137
#, c-format
msgctxt ""File|""
msgid ""Open One""
msgid_plural ""Open %d""
msgstr[0] ""打开 %d 个文件""

#: example_test.go:138 example_test.go:139
#, c-format
msgctxt ""Project|""
msgid ""Open One""
msgid_plural ""Open %d""
msgstr[0] ""打开 %d 个工程""
".
(** TestReadMo: the catalog is written as zh_CN_save.mo and read back as it was *)
Example test_read_mo :
  match read_mo zh_CN_mo with
  | MoOk f =>
      t_mo f = zh_CN_save_mo
      /\ match read_mo zh_CN_save_mo with
         | MoOk g => isort (vals (f_entries g)) = isort (vals (f_entries f)) /\ f_headers g = f_headers f /\ f_plural g = f_plural f
         | _ => False
         end
  | _ => False
  end.
Proof. vm_compute. repeat split; reflexivity. Qed.
(** TestSortedEntry *)
Example test_sorted_entry : match read_pot messages_pot with PoOk f => t_pot f = messages_new_pot | _ => False end.
Proof. vm_compute. reflexivity. Qed.
(** TestFile_Lang *)
Definition t_headers (k v : bytes) (l : gmap entry) : file := {| f_entries := l; f_headers := Some [(k, v)]; f_plural := None |}.
Definition t_str (s : bytes) : entry := t_entry [] [] [] false [] s [].
Example test_lang :
  map (fun f => fst (lang f))
    [ new_file; t_headers (B "Language") (B "zh_CN") []; {| f_entries := [(key [] [], t_str (B "Language: zh_CN"))]; f_headers := None; f_plural := None |} ]
  = [ []; B "zh_CN"; B "zh_CN" ].
Proof. vm_compute. reflexivity. Qed.
(** TestFile_T *)
Definition t_only (i : bytes) (e : entry) : file := {| f_entries := [(key [] i, e)]; f_headers := None; f_plural := None |}.
Example test_file_t :
  map (fun p => match p with (f, i, args) => f_x t_fmt f [] i args end)
    [ (new_file, B "hello", []); (new_file, B "hello %s", [VStr (B "world")]);
      (t_only (B "hello") (t_str (B "你好")), B "hello", []);
      (t_only (B "hello %s") (t_str (B "你好 %s")), B "hello %s", [VStr (B "world")]) ]
  = [ B "hello"; B "hello world"; B "你好"; B "你好 world" ].
Proof. vm_compute. reflexivity. Qed.
(** TestFile_N *)
Definition t_forms : gmap entry := [(key [] (B "one apple"), t_entry [] [] [] false [] [] [B "%d 个苹果"])].
Definition t_no_header : file := {| f_entries := t_forms; f_headers := None; f_plural := None |}.
Definition t_rule (r : bytes) : file := t_headers (B "Plural-Forms") r t_forms.
Example test_file_n :
  map (fun p => match p with (f, n, args) => fst (f_xn64 t_fmt f [] (B "one apple") (B "%d apples") n args) end)
    [ (new_file, 1, []); (new_file, 2, []); (new_file, 1, [VInt 1]); (new_file, 2, [VInt 2]);
      (t_no_header, 1, []); (t_no_header, 2, [VInt 2]);
      (t_rule (B "nplurals=1;plural=0;"), 1, []); (t_rule (B "nplurals=1;plural=0;"), 2, []); (t_rule (B "nplurals=1;plural=0;"), 1, [VInt 1]) ]
  = map XStr [ B "one apple"; B "%d apples"; B "one apple"; B "2 apples"; B "one apple"; B "2 apples";
               B "%d 个苹果"; B "%d 个苹果"; B "1 个苹果" ].
Proof. vm_compute. reflexivity. Qed.

(** ** cmd/xtemplate/internal/param_test.go *)
(** TestParseKeywords *)
Example test_parse_keywords :
  map parse_keywords
    [ B "T"; B "T:1"; B "N:1,2"; B "X:1c,2"; B "XN:1c,2,3"; B " T ; XN:1c, 2, 3 "; B "T;XN:1c,2,3" ]
  = map Some
    [ [kw (B "T") 0 1 0]; [kw (B "T") 0 1 0]; [kw (B "N") 0 1 2]; [kw (B "X") 1 2 0]; [kw (B "XN") 1 2 3];
      [kw (B "T") 0 1 0; kw (B "XN") 1 2 3]; [kw (B "T") 0 1 0; kw (B "XN") 1 2 3] ].
Proof. vm_compute. reflexivity. Qed.
Example test_parse_keywords_errors :
  forallb (fun s => match parse_keywords s with None => true | Some _ => false end)
    [ []; B "T::"; B "T:a"; B "T:ac,2"; B "T:1c,a"; B "T:a,b"; B "T:1,b"; B "XN:1,2,3"; B "XN:ac,2,3"; B "XN:1c,,3";
      B "XN:1c,a,3"; B "XN:1c,2,"; B "XN:1c,2,a"; B ":1"; B "XN:"; B "XN:1,2,3,4" ] = true.
Proof. vm_compute. reflexivity. Qed.

(** ** cmd/xtemplate/internal/run_test.go.  The template parser is not modelled:
    the trees of testdata/base.tmpl and testdata/index.tmpl are written out. *)
Definition t_kws : list keyword := [kw (B "T") 0 1 0; kw (B "N") 0 1 2; kw (B "X") 1 2 0; kw (B "XN") 1 2 3].
Definition t_field (l : list bytes) : pipe := [[AField l]].
Definition t_T (s : bytes) : tnode := TAction 0 [[AIdent (B "T"); AStr s]].
Definition t_dT (s : bytes) : tnode := TAction 0 [[AVar [B "$"; B "t"; B "T"]; AStr s]].
Definition t_base : tnode :=
  TList [ TOther;
    TAction 14 [[AStr (B "id2")]; [AField [B "XN"]; AStr (B "ctxt"); AStr (B "id")]]; TOther;
    TAction 15 [[AField [B "args"]]; [AField [B "XN"]; AStr (B "ctxt"); AStr (B "id"); AStr (B "id2")]]; TOther;
    TAction 16 [[AField [B "XN"]; AStr (B "ctxt"); AStr (B "id"); AStr (B "id2")]]; TOther;
    t_T (B "haha"); TOther;
    TAction 19 [[AStr (B "arg")]; [AIdent (B "X"); AStr (B "ctxt"); AStr (B "id")]]; TOther;
    TAction 20 [[AIdent (B "call"); AIdent (B "T"); AStr (B "haha")]]; TOther;
    TAction 21 [[AStr (B "haha")]; [AIdent (B "T")]]; TOther;
    TAction 22 [[AStr (B "haha")]; [AField [B "t"; B "T"]]]; TOther;
    TAction 24 [[AField [B "arg"]]; [AIdent (B "T"); AStr (B "id")]]; TOther;
    TAction 25 [[AIdent (B "T"); AStr (B "id")]]; TOther;
    TAction 26 [[AIdent (B "T"); APipe [[AStr (B "id")]]]]; TOther;
    TAction 27 [[AIdent (B "or"); APipe [[AIdent (B "T"); AStr (B "id")]]; APipe [[AIdent (B "T"); AStr (B "id")]]]]; TOther;
    TIf 28 (t_field [B "cond"]) (TList [t_T (B "inside if")]) (Some (TList [t_T (B "inside else")])); TOther;
    TRange 29 (t_field [B "list"]) (TList [t_T (B "inside range")]) (Some (TList [t_T (B "inside range else")])); TOther;
    TWith 30 (t_field [B "arg"]) (TList [t_T (B "inside with")]) (Some (TList [t_T (B "inside with else")])); TOther;
    TIf 31 (t_field [B "cond"]) (TList [t_dT (B "inside if without else")]) None; TOther;
    TRange 32 (t_field [B "list"]) (TList [t_dT (B "inside range without else")]) None; TOther;
    TWith 33 (t_field [B "arg"]) (TList [t_dT (B "inside with without else")]) None; TOther;
    TAction 34 [[AStr (B "piped through T")]; [AIdent (B "T")]]; TOther;
    TAction 35 [[AStr (B "piped through field T")]; [AField [B "t"; B "T"]]]; TOther;
    TAction 36 [[AStr (B "id-pipe")]; [AIdent (B "X"); AStr (B "ctxt-pipe")]]; TOther;
    TAction 37 [[AIdent (B "T"); APipe [[AStr (B "wrapped string arg")]]]]; TOther ].
Definition t_index : tnode :=
  TList [ TTemplate 1 (Some [[AOther]]);
    TTemplate 2 (Some [[AField [B "T"]; AStr (B "Title")]]); TOther;
    TWith 5 [[AField [B "T"]; AStr (B "foo")]] (TList [TOther; TAction 6 [[AVar [B "$foo"]]]; TOther]) None; TOther;
    TIf 8 [[AField [B "T"]; AStr (B "ok")]] (TList [TOther]) None; TOther;
    TRange 10 [[AField [B "T"]; AStr (B "range")]] (TList [TOther; TAction 11 [[AOther]]; TOther]) None; TOther;
    TAction 14 [[AField [B "T"]; AStr (B "Hello, World")]]; TOther;
    TAction 15 [[AField [B "T"]; AStr (B "Hello, %v")]]; TOther;
    TAction 16 [[AField [B "t"; B "X"]; AStr (B "ctx"); AStr (B "Hello, World")]]; TOther;
    TAction 17 [[AField [B "X"]; AStr (B "ctxt"); AStr (B "One apple")]]; TOther;
    TAction 18 [[AField [B "X"]; AStr (B "ctxt"); AStr (B "One apple")]]; TOther;
    TAction 19 [[AField [B "t"; B "XN"]; AStr (B "ctxt"); AStr (B "One apple"); AStr (B "%v apples")]]; TOther;
    TAction 20 [[AField [B "t"; B "N"]; AStr (B "id1"); AStr (B "id2")]]; TOther;
    TTemplate 23 (Some [[AOther]]) ].
Definition t_found (t : tnode) (l : list (bytes * bytes)) : bool :=
  let c := resolve_node (B "testdata/a.tmpl") t (new_ctx t_kws) in
  forallb (fun p => match mget (key (fst p) (snd p)) (c_entries c) with Some _ => true | None => false end) l.
(** TestFile *)
Example test_base : t_found t_base
  [ ([], B "inside if"); ([], B "inside else"); ([], B "inside range"); ([], B "inside range else"); ([], B "inside with");
    ([], B "inside with else"); ([], B "inside if without else"); ([], B "inside range without else");
    ([], B "inside with without else"); ([], B "piped through T"); ([], B "piped through field T");
    (B "ctxt-pipe", B "id-pipe"); ([], B "wrapped string arg") ] = true.
Proof. vm_compute. reflexivity. Qed.
(** TestTemplateAndControlNodes *)
Example test_index : t_found t_index [ ([], B "Title"); ([], B "foo"); ([], B "ok"); ([], B "range") ] = true.
Proof. vm_compute. reflexivity. Qed.

(** ** example_test.go, n1_test.go, translations_test.go *)
(** normalization of the languages of these tests, and the system's language *)
Definition t_norm (l : bytes) : bytes :=
  if beq l (B "zh") || beq l (B "zh_hans") then B "zh_CN" else if beq l (B "zh_hant") then B "zh_TW" else l.
Definition sys : bytes := B "en_US".
Definition t_state := @state (arg nat).
Definition ts0 : t_state := TransModel.init sys.
(** the directory testdata as it is, and the file zh_CN.po in it; an embed.FS of
    the one file has the directory around it *)
Definition t_dir : list event := walk_dir (Some (NDir (B ".") (Some
  [ NFile (B "zh_CN_save.mo") (Content zh_CN_save_mo); NFile (B "messages.pot") (Content messages_pot);
    NFile (B "messages.new.pot") (Content messages_new_pot); NFile (B "zh_CN.po") (Content zh_CN_po);
    NFile (B "zh_CN.mo") (Content zh_CN_mo) ]))).
Definition t_one : list event := walk_dir (Some (NFile (B "zh_CN.po") (Content zh_CN_po))).
Definition t_embed : list event := walk_dir (Some (NDir (B ".") (Some [NDir (B "testdata") (Some [NFile (B "zh_CN.po") (Content zh_CN_po)])]))).
Notation gT := (g_T t_fmt).
Notation g_set := (fun s l => g_set_locale t_norm s l sys).
Notation gbind := (fun s d w => g_bind t_norm s d w w).
Definition str (r : xres * t_state) : bytes := match fst r with XStr s => s | _ => B "panic" end.
Definition t_hw : bytes := B "Hello, World".
Definition t_zh : bytes := B "你好，世界".
Definition t_loaded : t_state := Eval vm_compute in g_load t_norm ts0 t_dir t_dir.
Definition t_po_loaded : t_state := Eval vm_compute in g_load t_norm ts0 t_one t_one.
Definition t_main : t_state := Eval vm_compute in gbind ts0 (B "main") t_dir.
Definition t_two : t_state := Eval vm_compute in gbind t_main (B "extra") t_one.
(** Example_init_path, Example_init_file, Example_initFS *)
Example test_init :
  gT (g_set (g_set t_loaded []) (B "zh_CN")) t_hw [] = t_zh
  /\ gT (g_set t_po_loaded (B "zh_hans")) t_hw [] = t_zh /\ gT (g_set t_loaded (B "zh")) t_hw [] = t_zh.
Proof. vm_compute. repeat split; reflexivity. Qed.
(** Example_init_fileFS *)
Example test_init_file_fs :
  let s := g_set (g_load t_norm ts0 t_embed t_embed) (B "zh_hans") in
  let s' := g_set s (B "zh_hant") in
  (g_locale s, gT s t_hw [], g_locale s', gT s' t_hw []) = (B "zh_CN", t_zh, B "zh_TW", t_hw).
Proof. vm_compute. reflexivity. Qed.
(** Example_locale *)
Example test_locale :
  let s := g_set t_loaded (B "zh") in
  let s' := g_set s (B "zh_TW") in
  let (h, n) := new_translations s' sys in
  let n := set_locale t_norm (set_source t_norm n h (B "zh_CN")) h (B "en_US") sys in
  [g_used s; g_used s'; g_source s'; h_source n h; h_locale n h; used_locale n h; h_t t_fmt n h t_zh []]
  = [B "zh_CN"; B "en_US"; B "en_US"; B "zh_CN"; B "en_US"; B "zh_CN"; t_zh].
Proof. vm_compute. reflexivity. Qed.
(** Example_bindDomain *)
Example test_bind_domain :
  let s := gbind (g_set ts0 (B "zh")) (B "main") t_one in
  let s' := g_set_domain s (B "main") in
  (g_has s (B "main"), g_has s (B "no"), keys (h_domains s (s_global s)), gT s t_hw [], gT s' t_hw [])
  = (true, false, [B "main"], t_hw, t_zh).
Proof. vm_compute. reflexivity. Qed.
(** Example_gettext *)
Example test_gettext :
  let s := g_set t_loaded (B "zh_CN") in
  [ gT s t_hw []; gT s (B "Hello, %s") [VStr (B "Tom")];
    str (g_N t_fmt s (B "One apple") (B "%d apples") 1 []); str (g_N t_fmt s (B "One apple") (B "%d apples") 1 [VInt 1]);
    str (g_N t_fmt s (B "One apple") (B "%d apples") 2 []); str (g_N t_fmt s (B "One apple") (B "%d apples") 2 [VInt 2]);
    str (g_N64 t_fmt s (B "One apple") (B "%d apples") 200 [VInt 200]);
    g_X t_fmt s (B "File|") (B "Open") []; g_X t_fmt s (B "Project|") (B "Open") [];
    str (g_XN t_fmt s (B "File|") (B "Open One") (B "Open %d") 1 [VInt 1]);
    str (g_XN t_fmt s (B "Project|") (B "Open One") (B "Open %d") 1 []);
    str (g_XN t_fmt s (B "Project|") (B "Open One") (B "Open %d") 1 [VInt 1]);
    str (g_XN64 t_fmt s (B "Project|") (B "Open One") (B "Open %d") 100 [VInt 100]) ]
  = [ t_zh; B "你好，Tom"; B "%d 个苹果"; B "1 个苹果"; B "%d 个苹果"; B "2 个苹果"; B "200 个苹果"; B "打开文件"; B "打开工程";
      B "打开 1 个文件"; B "打开 %d 个工程"; B "打开 1 个工程"; B "打开 100 个工程" ].
Proof. vm_compute. reflexivity. Qed.
(** Example_with *)
Example test_with :
  let (l, s) := g_L t_norm t_main (B "zh_CN") sys in
  let (d, s') := g_D s (B "main") in
  let (e, s'') := h_L t_norm s' d (B "zh_CN") sys in
  (h_t t_fmt s l t_hw [], h_t t_fmt s'' e t_hw []) = (t_hw, t_zh).
Proof. vm_compute. reflexivity. Qed.
(** Example_locales *)
Lemma t_locales (s : t_state) h ks out :
  keys (tr_langs (the_tr s (h_get_or_noop s h (h_domain s h)))) = ks ->
  Permutation out (collect t_norm (h_source s h) ks) -> sorted_strings out -> locales t_norm s h out.
Proof. intros <- P O. eexists. split; [apply Permutation_refl|split; assumption]. Qed.
Example test_locales :
  g_locales t_norm ts0 [B "en_US"] /\ g_locales t_norm t_loaded [B "en_US"; B "zh_CN"]
  /\ (let (h, s) := g_D t_main (B "main") in locales t_norm s h [B "en_US"; B "zh_CN"])
  /\ (let (h, s) := g_D t_main (B "no-such-domain") in locales t_norm s h [B "en_US"]).
Proof.
  split; [|split; [|split]].
  1,4: apply (t_locales _ _ []); [vm_compute; reflexivity|apply Permutation_refl|vm_compute; repeat split; intros y []].
  all: apply (t_locales _ _ [B "zh_CN"]); [vm_compute; reflexivity|apply Permutation_refl|].
  all: split; [intros y [<-|[]]; reflexivity|split; [intros y []|exact I]].
Qed.
(** Example_removeDomain and TestTranslationsRemoveDomain *)
Example test_remove_domain :
  let s := g_set_domain (g_set t_two (B "zh_CN")) (B "main") in
  let (ok, s') := g_remove s (B "main") in
  (keys (h_domains s 0), ok, g_domain s', keys (h_domains s' 0), gT s' t_hw [], fst (g_remove s []), fst (g_remove s (B "missing")))
  = ([B "main"; B "extra"], true, B "default", [B "extra"], t_hw, false, false).
Proof. vm_compute. reflexivity. Qed.
(** Example_clearDomains and TestTranslationsClearDomains *)
Example test_clear_domains :
  let s := g_set_domain (g_set_source t_norm (g_set t_main (B "zh_CN")) (B "zh_CN")) (B "main") in
  let s' := g_clear s in
  (keys (h_domains s 0), keys (h_domains s' 0), g_domain s', g_locale s', g_source s', gT s' t_hw [])
  = ([B "main"], [], B "default", B "zh_CN", B "zh_CN", t_hw).
Proof. vm_compute. reflexivity. Qed.
(** ExampleN1, ExampleN1_withTranslation and ExampleTranslations_N1 *)
Example test_n1 :
  let calls (s : t_state) (i : bytes) := map (fun p => str (g_N1 t_fmt s i (fst p) (snd p))) [(1, []); (1, [VInt 1]); (2, []); (2, [VInt 2])] in
  calls ts0 (B "%d 个苹果") = [B "%d 个苹果"; B "1 个苹果"; B "%d 个苹果"; B "2 个苹果"]
  /\ calls (g_set t_loaded (B "zh_CN")) (B "One apple") = [B "%d 个苹果"; B "1 个苹果"; B "%d 个苹果"; B "2 个苹果"]
  /\ (let (d, s) := g_D t_loaded (B "default") in let (h, s) := h_L t_norm s d (B "zh_CN") sys in
      map (fun p => str (h_n1 t_fmt s h (B "One apple") (fst p) (snd p))) [(1, []); (1, [VInt 1]); (3, []); (3, [VInt 3])]
      = [B "%d 个苹果"; B "1 个苹果"; B "%d 个苹果"; B "3 个苹果"]).
Proof. vm_compute. repeat split; reflexivity. Qed.
(** context_test.go: TestWithContext (what the handle holds) *)
Definition t_shows (p : nat * t_state) : bytes * bytes * bytes * list bytes :=
  let (h, s) := p in (h_locale s h, h_domain s h, h_source s h, keys (h_domains s h)).
Example test_with_context :
  map (fun c => t_shows (with_context t_norm ts0 c sys))
    [ CBackground; set_ctx_locale CBackground (B "zh_CN"); set_ctx_domain CBackground (B "my-domain") ]
  = [ t_shows (0%nat, ts0); t_shows (h_L t_norm ts0 0 (B "zh_CN") sys); t_shows (h_D ts0 0 (B "my-domain")) ].
Proof. vm_compute. reflexivity. Qed.
