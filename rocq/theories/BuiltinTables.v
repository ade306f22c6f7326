(** * Model of src/builtin_table.c

    Transcribed row by row (tools/gen_builtin.py).  [c_ucn 0xNNNN] stands for the
    universal character name \uNNNN inside a C string literal, which the compiler
    stores in the execution character set, UTF-8. *)

From Verif Require Import Base Table.

(** A universal character name in a C string literal (C11 6.4.3, 5.2.1): its UTF-8
    encoding (only code points below 0x10000 occur in src/builtin_table.c). *)
Definition c_ucn (cp : N) : str :=
  (if cp <? 0x80 then [Nb cp]
   else if cp <? 0x800 then [Nb (0xC0 + cp / 64); Nb (0x80 + cp mod 64)]
   else [Nb (0xE0 + cp / 4096); Nb (0x80 + cp / 64 mod 64); Nb (0x80 + cp mod 64)])%N.

Definition R (key : N) (data : str) : row := mkRow key (Some data).

(** src/builtin_table.c:18-74 [builtin_safe_rows] *)
Definition builtin_safe_rows : list row := [
  R 0x0001 (bs "_");
  R 0x0002 (bs "_");
  R 0x0003 (bs "_");
  R 0x0004 (bs "_");
  R 0x0005 (bs "_");
  R 0x0006 (bs "_");
  R 0x0007 (bs "_");
  R 0x0008 (bs "_");
  R 0x0009 (bs "_");
  R 0x000a (bs "_");
  R 0x000b (bs "_");
  R 0x000c (bs "_");
  R 0x000d (bs "_");
  R 0x000e (bs "_");
  R 0x000f (bs "_");
  R 0x0010 (bs "_");
  R 0x0011 (bs "_");
  R 0x0012 (bs "_");
  R 0x0013 (bs "_");
  R 0x0014 (bs "_");
  R 0x0015 (bs "_");
  R 0x0016 (bs "_");
  R 0x0017 (bs "_");
  R 0x0018 (bs "_");
  R 0x0019 (bs "_");
  R 0x001a (bs "_");
  R 0x001b (bs "_");
  R 0x001c (bs "_");
  R 0x001d (bs "_");
  R 0x001e (bs "_");
  R 0x001f (bs "_");
  R 0x0020 (bs "_");
  R 0x0021 (bs "_");
  R 0x0022 (bs "_");
  R 0x0024 (bs "_");
  R 0x0026 (bs "_and_");
  R 0x0027 (bs "_");
  R 0x0028 (bs "-");
  R 0x0029 (bs "-");
  R 0x002a (bs "_");
  R 0x002f (bs "_");
  R 0x003a (bs "_");
  R 0x003b (bs "_");
  R 0x003c (bs "_");
  R 0x003e (bs "_");
  R 0x003f (bs "_");
  R 0x0040 (bs "_");
  R 0x005b (bs "-");
  R 0x005c (bs "_");
  R 0x005d (bs "-");
  R 0x0060 (bs "_");
  R 0x007b (bs "-");
  R 0x007c (bs "_");
  R 0x007d (bs "-");
  R 0x007f (bs "_")
]%N.

(** src/builtin_table.c:76-89 [builtin_safe_table] *)
Definition builtin_safe_table : table :=
  mkTable builtin_safe_rows 55 5 None 0 false true 0x007f.

(** src/builtin_table.c:91-94 [load_builtin_safe_table] *)
Definition load_builtin_safe_table : table :=
  table_resize builtin_safe_table 256 true.

(** src/builtin_table.c:100-197 [builtin_iso8859_1_rows] *)
Definition builtin_iso8859_1_rows : list row := [
  R 0x00a0 (bs " ");
  R 0x00a1 (c_ucn 0x00A1);
  R 0x00a2 (c_ucn 0x00A2);
  R 0x00a3 (c_ucn 0x00A3);
  R 0x00a4 (c_ucn 0x00A4);
  R 0x00a5 (c_ucn 0x00A5);
  R 0x00a6 (c_ucn 0x00A6);
  R 0x00a7 (c_ucn 0x00A7);
  R 0x00a8 (c_ucn 0x00A8);
  R 0x00a9 (c_ucn 0x00A9);
  R 0x00aa (c_ucn 0x00AA);
  R 0x00ab (c_ucn 0x00AB);
  R 0x00ac (c_ucn 0x00AC);
  R 0x00ad (bs "-");
  R 0x00ae (c_ucn 0x00AE);
  R 0x00af (c_ucn 0x00AF);
  R 0x00b0 (c_ucn 0x00B0);
  R 0x00b1 (c_ucn 0x00B1);
  R 0x00b2 (c_ucn 0x00B2);
  R 0x00b3 (c_ucn 0x00B3);
  R 0x00b4 (c_ucn 0x00B4);
  R 0x00b5 (c_ucn 0x00B5);
  R 0x00b6 (c_ucn 0x00B6);
  R 0x00b7 (c_ucn 0x00B7);
  R 0x00b8 (c_ucn 0x00B8);
  R 0x00b9 (c_ucn 0x00B9);
  R 0x00ba (c_ucn 0x00BA);
  R 0x00bb (c_ucn 0x00BB);
  R 0x00bc (c_ucn 0x00BC);
  R 0x00bd (c_ucn 0x00BD);
  R 0x00be (c_ucn 0x00BE);
  R 0x00bf (c_ucn 0x00BF);
  R 0x00c0 (c_ucn 0x00C0);
  R 0x00c1 (c_ucn 0x00C1);
  R 0x00c2 (c_ucn 0x00C2);
  R 0x00c3 (c_ucn 0x00C3);
  R 0x00c4 (c_ucn 0x00C4);
  R 0x00c5 (c_ucn 0x00C5);
  R 0x00c6 (c_ucn 0x00C6);
  R 0x00c7 (c_ucn 0x00C7);
  R 0x00c8 (c_ucn 0x00C8);
  R 0x00c9 (c_ucn 0x00C9);
  R 0x00ca (c_ucn 0x00CA);
  R 0x00cb (c_ucn 0x00CB);
  R 0x00cc (c_ucn 0x00CC);
  R 0x00cd (c_ucn 0x00CD);
  R 0x00ce (c_ucn 0x00CE);
  R 0x00cf (c_ucn 0x00CF);
  R 0x00d0 (c_ucn 0x00D0);
  R 0x00d1 (c_ucn 0x00D1);
  R 0x00d2 (c_ucn 0x00D2);
  R 0x00d3 (c_ucn 0x00D3);
  R 0x00d4 (c_ucn 0x00D4);
  R 0x00d5 (c_ucn 0x00D5);
  R 0x00d6 (c_ucn 0x00D6);
  R 0x00d7 (c_ucn 0x00D7);
  R 0x00d8 (c_ucn 0x00D8);
  R 0x00d9 (c_ucn 0x00D9);
  R 0x00da (c_ucn 0x00DA);
  R 0x00db (c_ucn 0x00DB);
  R 0x00dc (c_ucn 0x00DC);
  R 0x00dd (c_ucn 0x00DD);
  R 0x00de (c_ucn 0x00DE);
  R 0x00df (c_ucn 0x00DF);
  R 0x00e0 (c_ucn 0x00E0);
  R 0x00e1 (c_ucn 0x00E1);
  R 0x00e2 (c_ucn 0x00E2);
  R 0x00e3 (c_ucn 0x00E3);
  R 0x00e4 (c_ucn 0x00E4);
  R 0x00e5 (c_ucn 0x00E5);
  R 0x00e6 (c_ucn 0x00E6);
  R 0x00e7 (c_ucn 0x00E7);
  R 0x00e8 (c_ucn 0x00E8);
  R 0x00e9 (c_ucn 0x00E9);
  R 0x00ea (c_ucn 0x00EA);
  R 0x00eb (c_ucn 0x00EB);
  R 0x00ec (c_ucn 0x00EC);
  R 0x00ed (c_ucn 0x00ED);
  R 0x00ee (c_ucn 0x00EE);
  R 0x00ef (c_ucn 0x00EF);
  R 0x00f0 (c_ucn 0x00F0);
  R 0x00f1 (c_ucn 0x00F1);
  R 0x00f2 (c_ucn 0x00F2);
  R 0x00f3 (c_ucn 0x00F3);
  R 0x00f4 (c_ucn 0x00F4);
  R 0x00f5 (c_ucn 0x00F5);
  R 0x00f6 (c_ucn 0x00F6);
  R 0x00f7 (c_ucn 0x00F7);
  R 0x00f8 (c_ucn 0x00F8);
  R 0x00f9 (c_ucn 0x00F9);
  R 0x00fa (c_ucn 0x00FA);
  R 0x00fb (c_ucn 0x00FB);
  R 0x00fc (c_ucn 0x00FC);
  R 0x00fd (c_ucn 0x00FD);
  R 0x00fe (c_ucn 0x00FE);
  R 0x00ff (c_ucn 0x00FF)
]%N.

(** src/builtin_table.c:199-212 [builtin_iso8859_1_table] *)
Definition builtin_iso8859_1_table : table :=
  mkTable builtin_iso8859_1_rows 96 6 (Some (bs "_")) 0 false true 0x00ff.

(** src/builtin_table.c:214-217 [load_builtin_iso8859_1_table] *)
Definition load_builtin_iso8859_1_table : table :=
  table_resize builtin_iso8859_1_table 256 true.

(** src/builtin_table.c:223-387 [builtin_unicode_rows] *)
Definition builtin_unicode_rows : list row := [
  R 0x0001 (bs "_");
  R 0x0002 (bs "_");
  R 0x0003 (bs "_");
  R 0x0004 (bs "_");
  R 0x0005 (bs "_");
  R 0x0006 (bs "_");
  R 0x0007 (bs "_");
  R 0x0008 (bs "_");
  R 0x0009 (bs "_");
  R 0x000a (bs "_");
  R 0x000b (bs "_");
  R 0x000c (bs "_");
  R 0x000d (bs "_");
  R 0x000e (bs "_");
  R 0x000f (bs "_");
  R 0x0010 (bs "_");
  R 0x0011 (bs "_");
  R 0x0012 (bs "_");
  R 0x0013 (bs "_");
  R 0x0014 (bs "_");
  R 0x0015 (bs "_");
  R 0x0016 (bs "_");
  R 0x0017 (bs "_");
  R 0x0018 (bs "_");
  R 0x0019 (bs "_");
  R 0x001a (bs "_");
  R 0x001b (bs "_");
  R 0x001c (bs "_");
  R 0x001d (bs "_");
  R 0x001e (bs "_");
  R 0x001f (bs "_");
  R 0x0020 (bs " ");
  R 0x0021 (bs "!");
  R 0x0022 (bs """");
  R 0x0023 (bs "#");
  R 0x0024 (bs "$");
  R 0x0025 (bs "%");
  R 0x0026 (bs "&");
  R 0x0027 (bs "'");
  R 0x0028 (bs "(");
  R 0x0029 (bs ")");
  R 0x002a (bs "*");
  R 0x002b (bs "+");
  R 0x002c (bs ",");
  R 0x002d (bs "-");
  R 0x002e (bs ".");
  R 0x002f (bs "/");
  R 0x0030 (bs "0");
  R 0x0031 (bs "1");
  R 0x0032 (bs "2");
  R 0x0033 (bs "3");
  R 0x0034 (bs "4");
  R 0x0035 (bs "5");
  R 0x0036 (bs "6");
  R 0x0037 (bs "7");
  R 0x0038 (bs "8");
  R 0x0039 (bs "9");
  R 0x003a (bs ":");
  R 0x003b (bs ";");
  R 0x003c (bs "<");
  R 0x003d (bs "=");
  R 0x003e (bs ">");
  R 0x003f (bs "?");
  R 0x0040 (bs "@");
  R 0x0041 (bs "A");
  R 0x0042 (bs "B");
  R 0x0043 (bs "C");
  R 0x0044 (bs "D");
  R 0x0045 (bs "E");
  R 0x0046 (bs "F");
  R 0x0047 (bs "G");
  R 0x0048 (bs "H");
  R 0x0049 (bs "I");
  R 0x004a (bs "J");
  R 0x004b (bs "K");
  R 0x004c (bs "L");
  R 0x004d (bs "M");
  R 0x004e (bs "N");
  R 0x004f (bs "O");
  R 0x0050 (bs "P");
  R 0x0051 (bs "Q");
  R 0x0052 (bs "R");
  R 0x0053 (bs "S");
  R 0x0054 (bs "T");
  R 0x0055 (bs "U");
  R 0x0056 (bs "V");
  R 0x0057 (bs "W");
  R 0x0058 (bs "X");
  R 0x0059 (bs "Y");
  R 0x005a (bs "Z");
  R 0x005b (bs "[");
  R 0x005c (bs "\");
  R 0x005d (bs "]");
  R 0x005e (bs "^");
  R 0x005f (bs "_");
  R 0x0060 (bs "`");
  R 0x0061 (bs "a");
  R 0x0062 (bs "b");
  R 0x0063 (bs "c");
  R 0x0064 (bs "d");
  R 0x0065 (bs "e");
  R 0x0066 (bs "f");
  R 0x0067 (bs "g");
  R 0x0068 (bs "h");
  R 0x0069 (bs "i");
  R 0x006a (bs "j");
  R 0x006b (bs "k");
  R 0x006c (bs "l");
  R 0x006d (bs "m");
  R 0x006e (bs "n");
  R 0x006f (bs "o");
  R 0x0070 (bs "p");
  R 0x0071 (bs "q");
  R 0x0072 (bs "r");
  R 0x0073 (bs "s");
  R 0x0074 (bs "t");
  R 0x0075 (bs "u");
  R 0x0076 (bs "v");
  R 0x0077 (bs "w");
  R 0x0078 (bs "x");
  R 0x0079 (bs "y");
  R 0x007a (bs "z");
  R 0x007b (bs "{");
  R 0x007c (bs "|");
  R 0x007d (bs "}");
  R 0x007e (bs "~");
  R 0x007f (bs "_");
  R 0x00a0 (bs " ");
  R 0x00ad (bs "-");
  R 0x2000 (bs " ");
  R 0x2001 (bs " ");
  R 0x2002 (bs " ");
  R 0x2003 (bs " ");
  R 0x2004 (bs " ");
  R 0x2005 (bs " ");
  R 0x2006 (bs " ");
  R 0x2007 (bs " ");
  R 0x2008 (bs " ");
  R 0x2009 (bs " ");
  R 0x200a (bs " ");
  R 0x200b (bs "");
  R 0x200c (bs "");
  R 0x200d (bs "");
  R 0x200e (bs "");
  R 0x200f (bs "");
  R 0x2010 (bs "-");
  R 0x2011 (bs "-");
  R 0x2012 (bs "-");
  R 0x2013 (bs "-");
  R 0x2014 (bs "-");
  R 0x2015 (bs "-");
  R 0x2017 (bs "_");
  R 0x2028 (bs " ");
  R 0x2029 (bs " ");
  R 0x202a (bs " ");
  R 0x202b (bs " ");
  R 0x202c (bs " ");
  R 0x202d (bs " ");
  R 0x202e (bs " ");
  R 0x202f (bs " ");
  R 0x2044 (bs "_");
  R 0x205f (bs " ");
  R 0x2060 (bs "")
]%N.

(** src/builtin_table.c:389-402 [builtin_unicode_table] *)
Definition builtin_unicode_table : table :=
  mkTable builtin_unicode_rows 163 1 None 0 false true 0x2060.

(** src/builtin_table.c:404-407 [load_builtin_unicode_table] *)
Definition load_builtin_unicode_table : table :=
  table_resize builtin_unicode_table 256 true.

(** src/builtin_table.c:413-446 [builtin_cp1252_rows] *)
Definition builtin_cp1252_rows : list row := [
  R 0x0080 (c_ucn 0x20AC);
  R 0x0081 (bs "-");
  R 0x0082 (c_ucn 0x201A);
  R 0x0083 (c_ucn 0x0192);
  R 0x0084 (c_ucn 0x201E);
  R 0x0085 (c_ucn 0x2026);
  R 0x0086 (c_ucn 0x2020);
  R 0x0087 (c_ucn 0x2021);
  R 0x0088 (c_ucn 0x02C6);
  R 0x0089 (c_ucn 0x2030);
  R 0x008a (c_ucn 0x0160);
  R 0x008b (c_ucn 0x2039);
  R 0x008c (c_ucn 0x0152);
  R 0x008d (bs "-");
  R 0x008e (c_ucn 0x017D);
  R 0x008f (bs "-");
  R 0x0090 (bs "-");
  R 0x0091 (c_ucn 0x2018);
  R 0x0092 (c_ucn 0x2019);
  R 0x0093 (c_ucn 0x201C);
  R 0x0094 (c_ucn 0x201D);
  R 0x0095 (c_ucn 0x2022);
  R 0x0096 (c_ucn 0x2013);
  R 0x0097 (c_ucn 0x2014);
  R 0x0098 (c_ucn 0x02DC);
  R 0x0099 (c_ucn 0x2122);
  R 0x009a (c_ucn 0x0161);
  R 0x009b (c_ucn 0x203A);
  R 0x009c (c_ucn 0x0153);
  R 0x009d (bs "-");
  R 0x009e (c_ucn 0x017E);
  R 0x009f (c_ucn 0x0178)
]%N.

(** src/builtin_table.c:448-461 [builtin_cp1252_table] *)
Definition builtin_cp1252_table : table :=
  mkTable builtin_cp1252_rows 32 6 None 0 false true 0x009f.

(** src/builtin_table.c:463-466 [load_builtin_cp1252_table] *)
Definition load_builtin_cp1252_table : table :=
  table_resize builtin_cp1252_table 256 true.
