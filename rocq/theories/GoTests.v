(** Cases of the tests of the Go library (strconv/quote_test.go, strconv/atoi_test.go,
    fmt/fmt_test.go, strings/strings_test.go, unicode/utf8/utf8_test.go), run on
    the models of these functions.  As in RepoTests.v these are no properties;
    they check the part of the trusted base that models Go's library. *)
From Coq Require Import ZArith NArith.
From Verif Require Import GoStr GoQuote GoFmt.
Import ListNotations.
Local Open Scope Z_scope.

Definition bs (l : list Z) : bytes := map (fun z => byte_of (Z.to_N z)) l.
(** unicode.IsPrint for the characters above ASCII that occur here *)
Definition some_print (r : N) : bool := existsb (N.eqb r) [0x263a; 0xfffd]%N.

(** ** strconv/quote_test.go *)
(** quotetests; the last three have the characters U+00A0, U+2000, U+3000 *)
Example go_quote :
  map (quote some_print)
    [ bs [7; 8; 12; 13; 10; 9; 11]; B "\"; B "abc" ++ bs [255] ++ B "def"; B "☺"; encode_rune 0x10ffff; bs [4];
      B "!" ++ encode_rune 0xa0 ++ B "!" ++ encode_rune 0x2000 ++ B "!" ++ encode_rune 0x3000 ++ B "!"; bs [127] ]
  = [ B """\a\b\f\r\n\t\v"""; B """\\"""; B """abc\xffdef"""; B """☺"""; B """\U0010ffff"""; B """\x04""";
      B """!\u00a0!\u2000!\u3000!"""; B """\x7f""" ].
Proof. vm_compute. reflexivity. Qed.
(** unquotetests *)
Example go_unquote :
  map unquote
    [ B """"""; B """a"""; B """abc"""; B """☺"""; B """hello world"""; B """\xFF"""; B """\377"""; B """\u1234"""; B """\U00010111""";
      B """\U0001011111"""; B """\a\b\f\n\r\t\v\\\"""""; B """'"""; B "'a'"; B "'☺'"; B "'\a'"; B "'\x10'"; B "'\377'"; B "'\u1234'";
      B "'\U00010111'"; B "'\t'"; B "' '"; B "'\''"; B "'""'"; B "``"; B "`a`"; B "`abc`"; B "`☺`"; B "`hello world`"; B "`\xFF`"; B "`\`";
      bs [96; 10; 96]; bs [96; 9; 96]; B "` `"; bs [96; 97; 13; 98; 96] ]
  = map Some
    [ []; B "a"; B "abc"; B "☺"; B "hello world"; bs [255]; bs [255]; encode_rune 0x1234; encode_rune 0x10111;
      encode_rune 0x10111 ++ B "11"; bs [7; 8; 12; 10; 13; 9; 11] ++ B "\"""; B "'"; B "a"; B "☺"; bs [7]; bs [16]; bs [255]; encode_rune 0x1234;
      encode_rune 0x10111; bs [9]; B " "; B "'"; B """"; []; B "a"; B "abc"; B "☺"; B "hello world"; B "\xFF"; B "\";
      bs [10]; bs [9]; B " "; B "ab" ].
Proof. vm_compute. reflexivity. Qed.
(** misquoted *)
Example go_misquoted :
  forallb (fun s => match unquote s with None => true | Some _ => false end)
    [ []; B """"; B """a"; B """'"; B "b"""; B """\"""; B """\9"""; B """\19"""; B """\129"""; B "'\'"; B "'\9'"; B "'\19'"; B "'\129'"; B "'ab'";
      B """\x1!"""; B """\U12345678"""; B """\z"""; B "`"; B "`xxx"; B "``x" ++ [CR]; B "`"""; B """\'"""; B "'\""'"; bs [34; 10; 34];
      bs [34; 92; 110; 10; 34]; bs [39; 10; 39]; B """\udead"""; B """\ud83d\ude4f""" ] = true.
Proof. vm_compute. reflexivity. Qed.

(** ** strconv/atoi_test.go: parseInt64Tests with base 10 *)
Example go_parse_int :
  map parse_int
    [ []; B "0"; B "-0"; B "+0"; B "1"; B "-1"; B "+1"; B "12345"; B "-12345"; B "012345"; B "-012345"; B "98765432100"; B "-98765432100";
      B "9223372036854775807"; B "-9223372036854775807"; B "9223372036854775808"; B "-9223372036854775808"; B "9223372036854775809";
      B "-9223372036854775809"; B "-1_2_3_4_5"; B "-_12345"; B "_12345"; B "1__2345"; B "12345_"; B "123%45"; B "12345x"; B "-12345x"; B "+"; B "-" ]
  = [ None; Some 0; Some 0; Some 0; Some 1; Some (-1); Some 1; Some 12345; Some (-12345); Some 12345; Some (-12345); Some 98765432100; Some (-98765432100);
      Some 9223372036854775807; Some (-9223372036854775807); None; Some (-9223372036854775808); None;
      None; None; None; None; None; None; None; None; None; None; None ].
Proof. vm_compute. reflexivity. Qed.

(** ** fmt/fmt_test.go *)
(** %d with a width and %#o on small numbers, and the refusal of other verbs *)
Definition pad (w : option Z) (s : bytes) : bytes :=
  match w with Some z => repeat SP (Z.to_nat z - length s) ++ s | None => s end.
Definition octal (z : Z) : bytes := B "0" ++ (if z <? 8 then [] else dec_Z (z / 8)) ++ dec_Z (z mod 8).
Definition go_print (d : spec) (v : arg nat) : bytes :=
  match v with
  | VInt z => if (sp_verb d =? 100)%N then pad (sp_wid d) (dec_Z z)
              else if (sp_verb d =? 111)%N && beq (sp_flags d) (B "#") then octal z
              else B "%!" ++ encode_rune (sp_verb d) ++ B "(int=" ++ dec_Z z ++ B ")"
  | VStr s => B "%!" ++ encode_rune (sp_verb d) ++ B "(string=" ++ s ++ B ")"
  | VOther _ => []
  end.
Definition go_int (v : arg nat) : option Z := match v with VInt z => Some z | _ => None end.
Definition go_extra (l : list (arg nat)) : bytes :=
  join (B ", ") (map (fun v => match v with VInt z => B "int=" ++ dec_Z z | VStr s => B "string=" ++ s | VOther _ => [] end) l).
Definition go_sprintf (f : bytes) (l : list Z) : bytes := sprintf go_print go_int go_extra f (map VInt l).
(** reorderTests *)
Example go_reorder :
  map (fun p => go_sprintf (fst p) (snd p))
    [ (B "%[1]d", [1]); (B "%[2]d", [2; 1]); (B "%[2]d %[1]d", [1; 2]); (B "%[2]*[1]d", [2; 5]);
      (B "%d %d %d %#[1]o %#o %#o", [11; 12; 13]);
      (B "%[d", [2; 1]); (B "%]d", [2; 1]); (B "%[]d", [2; 1]); (B "%[-3]d", [2; 1]); (B "%[99]d", [2; 1]); (B "%[3]", [2; 1]);
      (B "%[1].2d", [5; 6]); (B "%[1]2d", [2; 1]); (B "%3.[2]d", [7]); (B "%.[2]d", [7]);
      (B "%d %d %d %#[1]o %#o %#o %#o", [11; 12; 13]); (B "%[5]d %[2]d %d", [1; 2; 3]); (B "%d %[3]d %d", [1; 2]); (B "%.[]", []);
      (B "%.-3d", [42]); (B "%2147483648d", [42]); (B "%-2147483648d", [42]); (B "%.2147483648d", [42]) ]
  = [ B "1"; B "1"; B "2 1"; B "    2";
      B "11 12 13 013 014 015";
      B "%!d(BADINDEX)"; B "%!](int=2)d%!(EXTRA int=1)"; B "%!d(BADINDEX)"; B "%!d(BADINDEX)"; B "%!d(BADINDEX)"; B "%!(NOVERB)";
      B "%!d(BADINDEX)"; B "%!d(BADINDEX)"; B "%!d(BADINDEX)"; B "%!d(BADINDEX)";
      B "11 12 13 013 014 015 %!o(MISSING)"; B "%!d(BADINDEX) 2 3"; B "1 %!d(BADINDEX) 2"; B "%!](BADINDEX)";
      B "%!-(int=42)3d"; B "%!(NOVERB)%!(EXTRA int=42)"; B "%!(NOVERB)%!(EXTRA int=42)"; B "%!(NOVERB)%!(EXTRA int=42)" ].
Proof. vm_compute. reflexivity. Qed.
(** fmtTests: the erroneous things, and widths from arguments *)
Example go_errors :
  go_sprintf [] [2] = B "%!(EXTRA int=2)" /\ go_sprintf (B "no args") [2] = B "no args%!(EXTRA int=2)"
  /\ go_sprintf (B "%d %d") [2] = B "2 %!d(MISSING)" /\ go_sprintf (B "%d") [2; 3] = B "2%!(EXTRA int=3)"
  /\ go_sprintf (B "%d%") [1] = B "1%!(NOVERB)" /\ go_sprintf (B "%☠") [1] = B "%!☠(int=1)"
  /\ go_sprintf (B "%*d") [4; 42] = B "  42" /\ go_sprintf (B "%*d") [10000000; 42] = B "%!(BADWIDTH)42" /\ go_sprintf (B "%*%") [4] = B "%"
  /\ sprintf go_print go_int go_extra (B "%*d") [VStr (B "x"); VInt 42] = B "%!(BADWIDTH)42"
  /\ go_sprintf (B "%.*d") [-1; 42] = B "%!(BADPREC)42" /\ go_sprintf (B "%.*d") [10000000; 42] = B "%!(BADPREC)42"
  /\ go_sprintf (B "%*") [4] = B "%!(NOVERB)" /\ go_sprintf (B "%%%d") [12] = B "%12" /\ go_sprintf (B "%%") [] = B "%".
Proof. vm_compute. repeat split; reflexivity. Qed.

(** ** strings/strings_test.go *)
(** trimSpaceTests; U+0085, U+00A0, U+2000, U+3000 are white *)
Example go_trim_space :
  map trim_space
    [ []; B "abc"; bs [9; 11; 13; 12; 10; 194; 133; 194; 160; 226; 128; 128; 227; 128; 128] ++ B "abc" ++ bs [9; 11; 13; 12; 10; 194; 133; 194; 160; 226; 128; 128; 227; 128; 128];
      B " "; bs [32; 9; 13; 10; 32; 9; 9; 13; 13; 10; 10; 32]; bs [32; 9; 13; 10; 32; 9; 9; 13; 13; 10; 10; 32] ++ B "x" ++ bs [9; 9; 13; 13; 10; 10; 32];
      bs [32; 226; 128; 128; 9; 13; 10; 32] ++ B "x" ++ bs [9; 9; 13; 13; 10; 121; 10; 32; 227; 128; 128];
      bs [49; 32; 9; 13; 10; 50]; B " x" ++ bs [128]; B " x" ++ bs [192]; B "x " ++ bs [192]; B "x " ++ bs [192; 192]; B "x ☺" ++ bs [192; 192; 32];
      B "x ☺ " ]
  = [ []; B "abc"; B "abc"; []; []; B "x"; B "x" ++ bs [9; 9; 13; 13; 10; 121];
      bs [49; 32; 9; 13; 10; 50]; B "x" ++ bs [128]; B "x" ++ bs [192]; B "x " ++ bs [192]; B "x " ++ bs [192; 192]; B "x ☺" ++ bs [192; 192];
      B "x ☺" ].
Proof. vm_compute. reflexivity. Qed.
(** splittests with one-byte separators, LastIndex and friends *)
Example go_split :
  split_byte "," [] = [[]] /\ split_byte "," (B "a,b,c") = [B "a"; B "b"; B "c"] /\ split_byte "," (B ",a,,") = [[]; B "a"; []; []]
  /\ last_index_byte "o" (B "foo") = Some 2%nat /\ last_index_byte "f" (B "oof") = Some 2%nat /\ last_index_byte "x" (B "foo") = None
  /\ index_byte "o" (B "foo") = Some 1%nat /\ index_byte "x" [] = None.
Proof. vm_compute. repeat split; reflexivity. Qed.

(** ** unicode/utf8/utf8_test.go: utf8map, surrogateMap and invalidSequenceTests *)
Definition utf8_map : list (Z * list Z) :=
  [ (0, [0]); (1, [1]); (0x7e, [0x7e]); (0x7f, [0x7f]); (0x80, [0xc2; 0x80]); (0x81, [0xc2; 0x81]); (0xbf, [0xc2; 0xbf]); (0xc0, [0xc3; 0x80]);
    (0xff, [0xc3; 0xbf]); (0x100, [0xc4; 0x80]); (0x400, [0xd0; 0x80]); (0x7ff, [0xdf; 0xbf]); (0x800, [0xe0; 0xa0; 0x80]); (0x801, [0xe0; 0xa0; 0x81]);
    (0x1000, [0xe1; 0x80; 0x80]); (0xd000, [0xed; 0x80; 0x80]); (0xd7ff, [0xed; 0x9f; 0xbf]); (0xe000, [0xee; 0x80; 0x80]); (0xfffe, [0xef; 0xbf; 0xbe]);
    (0xffff, [0xef; 0xbf; 0xbf]); (0x10000, [0xf0; 0x90; 0x80; 0x80]); (0x40000, [0xf1; 0x80; 0x80; 0x80]); (0x10fffe, [0xf4; 0x8f; 0xbf; 0xbe]);
    (0x10ffff, [0xf4; 0x8f; 0xbf; 0xbf]); (0xfffd, [0xef; 0xbf; 0xbd]) ].
Example go_utf8 :
  forallb (fun p => beq (encode_rune (Z.to_N (fst p))) (bs (snd p))
                    && (let (r, w) := decode_rune (bs (snd p) ++ B "x") in (r =? Z.to_N (fst p))%N && Nat.eqb w (length (snd p)))) utf8_map = true.
Proof. vm_compute. reflexivity. Qed.
Example go_utf8_invalid :
  forallb (fun s => match decode_rune (bs s) with (r, w) => (r =? RuneError)%N && Nat.eqb w 1 end && negb (valid_utf8 (bs s)))
    [ [0xed; 0xa0; 0x80]; [0xed; 0xbf; 0xbf];
      [0x80]; [0xbf]; [0xc0; 0x80]; [0xc1; 0xbf]; [0xc2; 0x7f]; [0xc2; 0xc0]; [0xdf; 0x7f]; [0xdf; 0xc0]; [0xe0; 0x9f; 0xbf]; [0xe0; 0xc0; 0x80]; [0xe0; 0xa0; 0x7f];
      [0xe1; 0x7f; 0xbf]; [0xe1; 0xc0; 0x80]; [0xe1; 0x80; 0x7f]; [0xe1; 0xbf; 0xc0]; [0xed; 0x7f; 0xbf]; [0xed; 0xa0; 0xbf]; [0xed; 0x80; 0x7f]; [0xf0; 0x8f; 0xbf; 0xbf];
      [0xf0; 0xc0; 0x80; 0x80]; [0xf0; 0x90; 0x7f; 0xbf]; [0xf0; 0x90; 0x80; 0x7f]; [0xf1; 0x7f; 0x80; 0xbf]; [0xf4; 0x90; 0x80; 0xbf]; [0xf4; 0x80; 0x80; 0x7f];
      [0xf5; 0x80; 0x80; 0x80]; [0xff] ] = true.
Proof. vm_compute. reflexivity. Qed.
