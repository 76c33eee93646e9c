(** The command xtemplate speaks the language of its user:
    /repo/cmd/xtemplate/main.go:22-35 and the language pack embedded in the program,
    /repo/cmd/xtemplate/lang.  The program requires package t at version v0.1.10
    (cmd/xtemplate/go.mod); that version is taken to be the code of /repo. *)
From Coq Require Import List ZArith NArith Bool Ascii.
From Verif Require Import GoStr GoQuote GoMap FileModel PoModel MoModel TransModel FsModel GlobalModel XtModel WriteModel MainModel XtErrModel XtUsageModel.
From Verif Require Import GoFmt.
Import ListNotations.

(** cmd/xtemplate/lang/zh_CN.po:1-152, byte by byte *)
Definition zh_CN_po : bytes := B "msgid """"
msgstr """"
""Project-Id-Version: xtemplate\n""
""POT-Creation-Date: 2021-08-24 17:47+0800\n""
""PO-Revision-Date: 2021-08-24 17:48+0800\n""
""Last-Translator: Lin <youthlinchen@outlook.com>\n""
""Language-Team: https://youthlin.com\n""
""Language: zh_CN\n""
""MIME-Version: 1.0\n""
""Content-Type: text/plain; charset=UTF-8\n""
""Content-Transfer-Encoding: 8bit\n""
""X-Generator: Poedit 2.4.2\n""
""X-Poedit-Basepath: ..\n""
""Plural-Forms: nplurals=1; plural=0;\n""
""X-Poedit-SourceCharset: UTF-8\n""
""X-Poedit-KeywordsList: T;N:1,2;X:1c,2;XN:1c,2,3\n""
""X-Poedit-SearchPath-0: .\n""
""X-Poedit-SearchPathExcluded-0: *_test.go\n""

#: internal/keyword.go:23
#, c-format
msgid ""invalid keywords: %s""
msgstr ""非法的关键字：%s""

#: internal/keyword.go:50
msgid ""msg id index is not a number""
msgstr ""待翻译原文的位置应该是数字""

#: internal/keyword.go:61
msgid ""context index is not a number: %v""
msgstr ""翻译上下文的位置应该是数字""

#: internal/keyword.go:67 internal/keyword.go:73 internal/keyword.go:99
#: internal/keyword.go:105
msgid ""msg id index is not a number: %v""
msgstr ""待翻译原文的位置应该是数字：%v""

#: internal/keyword.go:79
msgid ""msg plural index is not a number: %v""
msgstr ""待翻译复数内容的位置应该是数字：%v""

#: internal/keyword.go:88
msgid ""context index must end with 'c': %v""
msgstr ""翻译上下文的位置必须以 ‘c’ 结尾""

#: internal/keyword.go:93
msgid ""msg context index is not a number: %v""
msgstr ""翻译上下文的位置应该是数字：%v""

#: internal/keyword.go:118
msgid ""too much keyword index""
msgstr ""关键字指示的位置太多""

#: internal/keyword.go:122
#, c-format
msgid ""can not open output file: %s""
msgstr ""无法打开输出文件：%s""

#: internal/param.go:77
msgid """"
""msgid '%v' is used without plural and with plural.\n""
""Line    =%v\n""
""Previous=%v""
msgstr """"
""待翻译原文 ‘%v’ 即用于单数也用于复数。\n""
""当前行=%v\n""
""已扫描=%v""

#: internal/run.go:27
msgid ""invalid input pattern""
msgstr ""输入文件不合法""

#: internal/run.go:33
msgid ""failed to process file %v. error message: %+v""
msgstr ""处理文件 %v 失败。错误消息： %+v""

#: internal/run.go:35
msgid ""failed to process file %v. error message: %v""
msgstr ""处理文件 %v 失败。错误消息： %v""

#: internal/run.go:61
msgid ""failed to parse file %v""
msgstr ""处理文件 %v 失败""

#: internal/run.go:250
msgid ""Warning: %+v""
msgstr ""警告：%+v""

#: internal/run.go:252
msgid ""Warning: %v""
msgstr ""警告：%v""

#: main.go:32
msgid ""unexpected error: %+v\n""
msgstr ""非预期错误：%+v\n""

#: main.go:40
msgid ""run error: %+v""
msgstr ""运行失败：%+v""

#: main.go:42
msgid ""run error: %v""
msgstr ""运行失败：%v""

#: main.go:51
msgid ""input file pattern""
msgstr ""输入文件""

#: main.go:52
msgid ""left delim""
msgstr ""左分隔符""

#: main.go:53
msgid ""right delim""
msgstr ""右分隔符""

#: main.go:58
msgid ""keywords e.g.: gettext;T:1;N:1,2;X:1c,2;XN:1c,2,3""
msgstr ""关键字，例： gettext;T:1;N:1,2;X:1c,2;XN:1c,2,3""

#: main.go:55
msgid ""function names of template""
msgstr ""模板中用到的函数名""

#: main.go:56
msgid ""output file, - is stdout""
msgstr ""输出文件，- 表示标准输出""

#: main.go:57
msgid ""debug mode""
msgstr ""debug 模式""

#: main.go:58
msgid ""show version""
msgstr ""显示版本号""

#: main.go:59
msgid ""show help message""
msgstr ""显示帮助信息""

#: main.go:64
#, c-format
msgid """"
""Usage of %s:\n""
""xtemplate -i input-pattern -k keywords [-f functions] [-o output]\n""
msgstr """"
""%s 的用法：\n""
""xtemplate -i 输入文件 -k 关键字 [-f 模版中函数] [-o 输出文件]\n""

#: main.go:90
msgid ""flags -i and -k are required""
msgstr ""-i 和 -k 参数是必填的""
".
(** main.go:22-23: go:embed takes the directory with its files *)
Definition embedded : node := NDir (B ".") (Some [NDir (B "lang") (Some [NFile (B "zh_CN.po") (Content zh_CN_po)])]).

Section Init.
Variable norm : bytes -> bytes.
Variable print : spec -> arg (list bytes) -> bytes.
Variable as_int : arg (list bytes) -> option Z.
Variable extra : list (arg (list bytes)) -> bytes.
Notation state := (@state (arg (list bytes))).
(** f.Format of the values xtemplate formats *)
(* f/format.go:9-24 *)
Definition fmt_f : bytes -> list (arg (list bytes)) -> bytes := format_f (vprint print) as_int extra.
(** t.LoadFS of a file tree *)
(* main.go:30, 32 with init.go:20-27 and fs.go:10-20 *)
Definition load_tree (s : state) (t : option node) : state := g_load norm s (walk_dir t) (walk_dir t).
(** main.go:27-34.  [lang_path]: the variable LANG_PATH of the environment; [tree_at]: the
    file trees of the machine; [d]: the system locale *)
Definition init_translation (lang_path : option bytes) (tree_at : bytes -> option node) (d : bytes) (s : state) : state :=
  let s := match lang_path with
           | Some p => if blank_text p then load_tree s (Some embedded) else load_tree s (tree_at p)
           | None => load_tree s (Some embedded)
           end in
  g_set_locale norm s [] d.
(** the state of package t when main.go:45 begins: the program starts at init.go:7 with
    system locale [d0] *)
(* main.go:44 *)
Definition started (lang_path : option bytes) (tree_at : bytes -> option node) (d0 d : bytes) : state :=
  init_translation lang_path tree_at d (init d0).
(** t.T of the messages of xtemplate *)
(* main.go:40-94, run.go:55-288, keyword.go:24-131, param.go:85 *)
Definition own_text (s : state) (m : bytes) : bytes := g_T fmt_f s m [].
(** the whole program without [-d]: the exit status, the file system, standard output
    and standard error.  [prog]: os.Args[0]; [args]: the other arguments *)
(* main.go:37-56 *)
Definition xtemplate (isp : N -> bool) (open_err read_err : bytes -> bytes) (parse_err : list bytes -> bytes -> bytes -> bytes -> bytes)
    (write_err : bytes -> bytes) (close_err : bytes) (globs : fs -> bytes -> option (list bytes)) (creatable : bytes -> bool)
    (parses : list bytes -> bytes -> bytes -> bytes -> option (list tnode)) (letter number : N -> bool) (written : bytes -> Z * bool)
    (closes : bool) (version : bytes) (info : option (bytes * list (bytes * bytes)))
    (lang_path : option bytes) (tree_at : bytes -> option node) (d0 d prog now : bytes) (args : list bytes) (w : fs)
    (status : nat) (w' : fs) (out err : bytes) : Prop :=
  let tr := own_text (started lang_path tree_at d0 d) in
  main_e isp tr print as_int extra open_err read_err parse_err write_err close_err globs creatable parses letter number written closes
    version info (usage_text isp tr print as_int extra prog) (complaint_text isp) now args w status w' out err.
End Init.
