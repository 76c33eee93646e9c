(** Specification of the language of xtemplate: what its Chinese language pack says,
    and the messages of the program. *)
From Coq Require Import List ZArith NArith Bool Ascii.
From Verif Require Import GoStr XtErrSpec.
Import ListNotations.

(** the messages of the program, in the order of the source files *)
Definition messages : list bytes :=
  [B "unexpected error: %+v" ++ [NL];
   B "run error: %+v";
   B "run error: %v";
   B "input file pattern";
   B "left delim";
   B "right delim";
   B "keywords e.g.: gettext;T:1;N:1,2;X:1c,2;XN:1c,2,3";
   B "function names of template";
   B "output file, - is stdout";
   B "debug mode";
   B "show version";
   B "show help message";
   B "Usage of %s:" ++ [NL] ++ B "xtemplate -i input-pattern -k keywords [-f functions] [-o output]" ++ [NL];
   B "flags -i and -k are required";
   B "invalid input pattern";
   B "failed to process file %v. error message: %+v";
   B "failed to process file %v. error message: %v";
   B "failed to read file %v";
   B "failed to parse file %v";
   B "Warning: %+v";
   B "Warning: %v";
   B "invalid keywords: %s";
   B "msg id index is not a number";
   B "context index is not a number: %v";
   B "msg id index is not a number: %v";
   B "msg plural index is not a number: %v";
   B "context index must end with 'c': %v";
   B "msg context index is not a number: %v";
   B "too much keyword index";
   B "can not open output file: %s";
   B "msgid '%v' is used without plural and with plural." ++ [NL] ++ B "Line    =%v" ++ [NL] ++ B "Previous=%v"].
(** the translations of the language pack *)
Definition zh : list (bytes * bytes) :=
  [(B "invalid keywords: %s", B "非法的关键字：%s");
   (B "msg id index is not a number", B "待翻译原文的位置应该是数字");
   (B "context index is not a number: %v", B "翻译上下文的位置应该是数字");
   (B "msg id index is not a number: %v", B "待翻译原文的位置应该是数字：%v");
   (B "msg plural index is not a number: %v", B "待翻译复数内容的位置应该是数字：%v");
   (B "context index must end with 'c': %v", B "翻译上下文的位置必须以 ‘c’ 结尾");
   (B "msg context index is not a number: %v", B "翻译上下文的位置应该是数字：%v");
   (B "too much keyword index", B "关键字指示的位置太多");
   (B "can not open output file: %s", B "无法打开输出文件：%s");
   (B "msgid '%v' is used without plural and with plural." ++ [NL] ++ B "Line    =%v" ++ [NL] ++ B "Previous=%v", B "待翻译原文 ‘%v’ 即用于单数也用于复数。" ++ [NL] ++ B "当前行=%v" ++ [NL] ++ B "已扫描=%v");
   (B "invalid input pattern", B "输入文件不合法");
   (B "failed to process file %v. error message: %+v", B "处理文件 %v 失败。错误消息： %+v");
   (B "failed to process file %v. error message: %v", B "处理文件 %v 失败。错误消息： %v");
   (B "failed to parse file %v", B "处理文件 %v 失败");
   (B "Warning: %+v", B "警告：%+v");
   (B "Warning: %v", B "警告：%v");
   (B "unexpected error: %+v" ++ [NL], B "非预期错误：%+v" ++ [NL]);
   (B "run error: %+v", B "运行失败：%+v");
   (B "run error: %v", B "运行失败：%v");
   (B "input file pattern", B "输入文件");
   (B "left delim", B "左分隔符");
   (B "right delim", B "右分隔符");
   (B "keywords e.g.: gettext;T:1;N:1,2;X:1c,2;XN:1c,2,3", B "关键字，例： gettext;T:1;N:1,2;X:1c,2;XN:1c,2,3");
   (B "function names of template", B "模板中用到的函数名");
   (B "output file, - is stdout", B "输出文件，- 表示标准输出");
   (B "debug mode", B "debug 模式");
   (B "show version", B "显示版本号");
   (B "show help message", B "显示帮助信息");
   (B "Usage of %s:" ++ [NL] ++ B "xtemplate -i input-pattern -k keywords [-f functions] [-o output]" ++ [NL], B "%s 的用法：" ++ [NL] ++ B "xtemplate -i 输入文件 -k 关键字 [-f 模版中函数] [-o 输出文件]" ++ [NL]);
   (B "flags -i and -k are required", B "-i 和 -k 参数是必填的")].
(** what a list of translations makes of a message *)
Definition said_by (l : list (bytes * bytes)) (m t : bytes) : Prop :=
  In (m, t) l \/ (forall t', ~ In (m, t') l) /\ t = m.
(** the verbs of a message, in order *)
Inductive verbs : bytes -> list bytes -> Prop :=
| VB_end t : ~ In "%"%char t -> verbs t []
| VB_hole t v f vs : ~ In "%"%char t -> In v [B "v"; B "s"; B "+v"] -> verbs f vs -> verbs (t ++ B "%" ++ v ++ f) (v :: vs).
(** a translation that asks for the same values in the same order *)
Definition same_verbs (m t : bytes) : Prop := exists vs, verbs m vs /\ verbs t vs.
(** LANG_PATH names no path *)
Definition no_path (lang_path : option bytes) : Prop := forall p, lang_path = Some p -> trim_space p = [].
