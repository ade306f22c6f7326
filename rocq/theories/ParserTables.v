(** * The tables of the generated scanner and parser

    src/config_file_lex.c is flex's output for src/config_file_lex.l,
    src/config_file_yacc.c is bison's for src/config_file_yacc.y; both are part of the
    repository.  The tables below are copied from them by tools/gen_parser_tables.py. *)

From Verif Require Import Base.

(** ** The scanner *)

(** src/config_file_lex.c:366-380 *)
Definition yy_accept : list Z :=
  [0; 0; 0; 24; 23; 1; 3; 23; 2; 21; 22; 20; 20; 20; 20; 20; 20; 20; 20; 20;
   20; 17; 18; 1; 0; 19; 2; 21; 20; 20; 20; 20; 20; 20; 20; 20; 20; 20; 20; 20;
   20; 20; 20; 20; 20; 20; 20; 20; 20; 20; 20; 20; 20; 20; 20; 20; 20; 20; 20; 20;
   20; 20; 20; 12; 20; 20; 20; 20; 20; 20; 20; 20; 20; 9; 20; 20; 20; 14; 15; 20;
   20; 20; 6; 20; 8; 20; 20; 20; 16; 4; 20; 20; 20; 20; 20; 5; 20; 20; 20; 13;
   7; 20; 20; 10; 20; 20; 20; 20; 20; 11; 0]%Z.

(** src/config_file_lex.c:382-412 *)
Definition yy_ec : list Z :=
  [0; 1; 1; 1; 1; 1; 1; 1; 1; 2; 3; 1; 1; 1; 1; 1; 1; 1; 1; 1;
   1; 1; 1; 1; 1; 1; 1; 1; 1; 1; 1; 1; 2; 1; 4; 5; 1; 1; 1; 1;
   1; 1; 1; 1; 1; 1; 1; 1; 6; 7; 6; 6; 6; 8; 6; 6; 9; 10; 1; 11;
   1; 1; 1; 1; 1; 12; 13; 14; 15; 16; 17; 18; 19; 20; 15; 15; 21; 22; 23; 24;
   25; 26; 27; 28; 29; 30; 31; 32; 33; 15; 15; 1; 1; 1; 1; 34; 1; 35; 36; 37;
   15; 38; 39; 40; 41; 42; 15; 15; 43; 44; 45; 46; 47; 48; 49; 50; 51; 52; 53; 54;
   55; 15; 15; 56; 1; 57; 1; 1; 1; 1; 1; 1; 1; 1; 1; 1; 1; 1; 1; 1;
   1; 1; 1; 1; 1; 1; 1; 1; 1; 1; 1; 1; 1; 1; 1; 1; 1; 1; 1; 1;
   1; 1; 1; 1; 1; 1; 1; 1; 1; 1; 1; 1; 1; 1; 1; 1; 1; 1; 1; 1;
   1; 1; 1; 1; 1; 1; 1; 1; 1; 1; 1; 1; 1; 1; 1; 1; 1; 1; 1; 1;
   1; 1; 1; 1; 1; 1; 1; 1; 1; 1; 1; 1; 1; 1; 1; 1; 1; 1; 1; 1;
   1; 1; 1; 1; 1; 1; 1; 1; 1; 1; 1; 1; 1; 1; 1; 1; 1; 1; 1; 1;
   1; 1; 1; 1; 1; 1; 1; 1; 1; 1; 1; 1; 1; 1; 1; 1]%Z.

(** src/config_file_lex.c:414-422 *)
Definition yy_meta : list Z :=
  [0; 1; 1; 2; 1; 1; 3; 3; 3; 3; 3; 1; 3; 3; 3; 3; 3; 3; 3; 3;
   3; 3; 3; 3; 3; 3; 3; 3; 3; 3; 3; 3; 3; 3; 3; 3; 3; 3; 3; 3;
   3; 3; 3; 3; 3; 3; 3; 3; 3; 3; 3; 3; 3; 3; 3; 3; 1; 1]%Z.

(** src/config_file_lex.c:424-439 *)
Definition yy_base : list Z :=
  [0; 0; 0; 225; 234; 221; 234; 55; 0; 54; 234; 0; 35; 46; 49; 52; 57; 55; 62; 50;
   52; 234; 234; 218; 77; 234; 0; 76; 0; 71; 75; 79; 79; 81; 73; 73; 85; 91; 83; 96;
   95; 89; 94; 100; 93; 209; 101; 104; 177; 97; 106; 93; 114; 176; 119; 111; 123; 120; 200; 119;
   122; 129; 120; 0; 136; 133; 199; 125; 136; 146; 144; 199; 142; 0; 147; 148; 142; 0; 0; 141;
   144; 154; 0; 187; 0; 156; 125; 166; 0; 0; 168; 77; 172; 162; 176; 0; 68; 164; 167; 0;
   0; 176; 184; 0; 179; 179; 182; 181; 187; 0; 234; 227; 230; 67]%Z.

(** src/config_file_lex.c:441-456 *)
Definition yy_def : list Z :=
  [0; 110; 1; 110; 110; 110; 110; 111; 112; 110; 110; 113; 113; 113; 113; 113; 113; 113; 113; 113;
   113; 110; 110; 110; 111; 110; 112; 110; 113; 113; 113; 113; 113; 113; 113; 113; 113; 113; 113; 113;
   113; 113; 113; 113; 113; 113; 113; 113; 113; 113; 113; 113; 113; 113; 113; 113; 113; 113; 113; 113;
   113; 113; 113; 113; 113; 113; 113; 113; 113; 113; 113; 113; 113; 113; 113; 113; 113; 113; 113; 113;
   113; 113; 113; 113; 113; 113; 113; 113; 113; 113; 113; 113; 113; 113; 113; 113; 113; 113; 113; 113;
   113; 113; 113; 113; 113; 113; 113; 113; 113; 113; 0; 110; 110; 110]%Z.

(** src/config_file_lex.c:458-493 *)
Definition yy_nxt : list Z :=
  [0; 4; 5; 6; 7; 8; 9; 9; 9; 9; 9; 10; 11; 12; 11; 11; 11; 13; 11; 11;
   14; 15; 16; 11; 11; 11; 11; 17; 18; 11; 19; 11; 20; 11; 4; 11; 12; 11; 11; 13;
   11; 11; 14; 15; 16; 11; 11; 11; 11; 17; 18; 11; 19; 11; 20; 11; 21; 22; 25; 25;
   27; 27; 27; 27; 27; 29; 30; 31; 33; 35; 28; 36; 41; 39; 37; 100; 34; 32; 38; 40;
   25; 25; 27; 27; 27; 27; 27; 29; 30; 31; 33; 42; 35; 36; 41; 39; 43; 37; 34; 32;
   38; 40; 44; 45; 46; 47; 48; 49; 50; 51; 52; 96; 53; 42; 54; 55; 56; 57; 43; 59;
   60; 62; 63; 64; 44; 45; 46; 47; 48; 49; 50; 51; 65; 52; 53; 67; 54; 55; 56; 57;
   68; 59; 60; 62; 63; 64; 69; 70; 72; 73; 74; 75; 76; 77; 65; 79; 80; 67; 81; 93;
   82; 84; 68; 85; 86; 87; 88; 89; 69; 70; 72; 73; 74; 75; 76; 77; 90; 79; 80; 92;
   94; 81; 82; 84; 95; 85; 86; 87; 88; 89; 97; 98; 99; 101; 102; 103; 104; 91; 90; 105;
   106; 92; 107; 94; 108; 109; 95; 83; 78; 71; 66; 61; 97; 98; 99; 101; 102; 103; 58; 104;
   23; 105; 106; 23; 107; 110; 108; 109; 24; 24; 24; 26; 110; 26; 3; 110; 110; 110; 110; 110;
   110; 110; 110; 110; 110; 110; 110; 110; 110; 110; 110; 110; 110; 110; 110; 110; 110; 110; 110; 110;
   110; 110; 110; 110; 110; 110; 110; 110; 110; 110; 110; 110; 110; 110; 110; 110; 110; 110; 110; 110;
   110; 110; 110; 110; 110; 110; 110; 110; 110; 110; 110; 110]%Z.

(** src/config_file_lex.c:495-530 *)
Definition yy_chk : list Z :=
  [0; 1; 1; 1; 1; 1; 1; 1; 1; 1; 1; 1; 1; 1; 1; 1; 1; 1; 1; 1;
   1; 1; 1; 1; 1; 1; 1; 1; 1; 1; 1; 1; 1; 1; 1; 1; 1; 1; 1; 1;
   1; 1; 1; 1; 1; 1; 1; 1; 1; 1; 1; 1; 1; 1; 1; 1; 1; 1; 7; 7;
   9; 9; 9; 9; 9; 12; 13; 14; 15; 16; 113; 17; 20; 19; 18; 96; 15; 14; 18; 19;
   24; 24; 27; 27; 27; 27; 27; 12; 13; 14; 15; 29; 16; 17; 20; 19; 30; 18; 15; 14;
   18; 19; 31; 32; 33; 34; 35; 36; 37; 38; 39; 91; 40; 29; 41; 42; 43; 44; 30; 46;
   47; 49; 50; 51; 31; 32; 33; 34; 35; 36; 37; 38; 52; 39; 40; 54; 41; 42; 43; 44;
   55; 46; 47; 49; 50; 51; 56; 57; 59; 60; 61; 62; 64; 65; 52; 67; 68; 54; 69; 86;
   70; 72; 55; 74; 75; 76; 79; 80; 56; 57; 59; 60; 61; 62; 64; 65; 81; 67; 68; 85;
   87; 69; 70; 72; 90; 74; 75; 76; 79; 80; 92; 93; 94; 97; 98; 101; 102; 83; 81; 104;
   105; 85; 106; 87; 107; 108; 90; 71; 66; 58; 53; 48; 92; 93; 94; 97; 98; 101; 45; 102;
   23; 104; 105; 5; 106; 3; 107; 108; 111; 111; 111; 112; 0; 112; 110; 110; 110; 110; 110; 110;
   110; 110; 110; 110; 110; 110; 110; 110; 110; 110; 110; 110; 110; 110; 110; 110; 110; 110; 110; 110;
   110; 110; 110; 110; 110; 110; 110; 110; 110; 110; 110; 110; 110; 110; 110; 110; 110; 110; 110; 110;
   110; 110; 110; 110; 110; 110; 110; 110; 110; 110; 110; 110]%Z.

(** ** The parser *)

(** src/config_file_yacc.c:625-655 *)
Definition yytranslate : list Z :=
  [0; 2; 2; 2; 2; 2; 2; 2; 2; 2; 2; 2; 2; 2; 2; 2; 2; 2; 2; 2;
   2; 2; 2; 2; 2; 2; 2; 2; 2; 2; 2; 2; 2; 2; 2; 2; 2; 2; 2; 2;
   2; 2; 2; 2; 2; 2; 2; 2; 2; 2; 2; 2; 2; 2; 2; 2; 2; 2; 2; 2;
   2; 2; 2; 2; 2; 2; 2; 2; 2; 2; 2; 2; 2; 2; 2; 2; 2; 2; 2; 2;
   2; 2; 2; 2; 2; 2; 2; 2; 2; 2; 2; 2; 2; 2; 2; 2; 2; 2; 2; 2;
   2; 2; 2; 2; 2; 2; 2; 2; 2; 2; 2; 2; 2; 2; 2; 2; 2; 2; 2; 2;
   2; 2; 2; 2; 2; 2; 2; 2; 2; 2; 2; 2; 2; 2; 2; 2; 2; 2; 2; 2;
   2; 2; 2; 2; 2; 2; 2; 2; 2; 2; 2; 2; 2; 2; 2; 2; 2; 2; 2; 2;
   2; 2; 2; 2; 2; 2; 2; 2; 2; 2; 2; 2; 2; 2; 2; 2; 2; 2; 2; 2;
   2; 2; 2; 2; 2; 2; 2; 2; 2; 2; 2; 2; 2; 2; 2; 2; 2; 2; 2; 2;
   2; 2; 2; 2; 2; 2; 2; 2; 2; 2; 2; 2; 2; 2; 2; 2; 2; 2; 2; 2;
   2; 2; 2; 2; 2; 2; 2; 2; 2; 2; 2; 2; 2; 2; 2; 2; 2; 2; 2; 2;
   2; 2; 2; 2; 2; 2; 2; 2; 2; 2; 2; 2; 2; 2; 2; 2; 1; 2; 3; 4;
   5; 6; 7; 8; 9; 10; 11; 12; 13; 14; 15; 16; 17; 18; 19; 20; 21]%Z.

(** src/config_file_yacc.c:710-721 *)
Definition yypact : list Z :=
  [(-29); 1; (-29); (-10); (-15); (-29); (-29); 24; (-29); 4; (-29); (-29); (-29); 6; 35; 10; 36; 37; 45; 39;
   41; 3; (-29); 47; 49; 50; 51; 52; (-15); 18; (-29); (-29); 23; (-29); 0; 33; (-29); 40; (-1); 53;
   (-29); (-29); (-29); (-29); (-29); (-29); (-29); 54; 55; (-29); (-29); (-15); (-29); (-15); (-29); 26; (-15); (-29); (-15); (-15);
   (-29); (-15); (-29); 56; (-29); (-29); (-29); 57; 58; 59; 60; 61; 62; 63; 65; 66; 67; 68; 69; 70;
   71; 72; (-29); (-29); (-29); (-29); (-29); (-29); (-29); (-29)]%Z.

(** src/config_file_yacc.c:726-737 *)
Definition yydefact : list Z :=
  [2; 0; 1; 0; 0; 3; 4; 0; 5; 0; 37; 43; 42; 0; 18; 0; 33; 26; 0; 22;
   30; 0; 9; 0; 0; 0; 0; 0; 0; 0; 39; 7; 0; 12; 0; 0; 11; 0; 0; 0;
   6; 10; 14; 15; 16; 13; 17; 0; 0; 36; 40; 0; 19; 0; 34; 0; 0; 27; 0; 0;
   23; 0; 31; 0; 8; 41; 38; 0; 0; 0; 0; 0; 0; 0; 0; 0; 0; 0; 0; 0;
   0; 0; 32; 21; 20; 35; 29; 28; 25; 24]%Z.

(** src/config_file_yacc.c:740-744 *)
Definition yypgoto : list Z :=
  [(-29); (-29); (-29); (-29); (-29); (-29); (-29); 64; (-29); (-29); (-29); (-29); (-29); (-29); (-29); (-29); (-29); 48; (-28)]%Z.

(** src/config_file_yacc.c:747-751 *)
Definition yydefgoto : list Z :=
  [0; 1; 5; 6; 7; 40; 21; 22; 23; 24; 25; 26; 27; 8; 9; 49; 29; 30; 13]%Z.

(** src/config_file_yacc.c:756-767 *)
Definition yytable : list Z :=
  [47; 2; 10; 62; 54; 11; 12; 39; 3; 55; 28; 14; 63; 15; 16; 33; 4; 17; 31; 18;
   19; 20; 48; 67; 28; 68; 51; 52; 70; 53; 71; 72; 14; 73; 15; 16; 56; 57; 17; 58;
   18; 19; 20; 59; 60; 69; 61; 32; 34; 35; 36; 37; 42; 38; 43; 44; 45; 46; 64; 65;
   66; 74; 75; 76; 77; 78; 79; 80; 81; 82; 83; 84; 85; 86; 87; 88; 89; 50; 0; 0;
   0; 0; 0; 0; 0; 41]%Z.

(** src/config_file_yacc.c:769-780 *)
Definition yycheck : list Z :=
  [28; 0; 12; 4; 4; 20; 21; 4; 7; 9; 6; 8; 13; 10; 11; 5; 15; 14; 12; 16;
   17; 18; 4; 51; 6; 53; 3; 4; 56; 6; 58; 59; 8; 61; 10; 11; 3; 4; 14; 6;
   16; 17; 18; 3; 4; 19; 6; 12; 12; 12; 5; 12; 5; 12; 5; 5; 5; 5; 5; 5;
   5; 5; 5; 5; 5; 5; 5; 5; 5; 4; 4; 4; 4; 4; 4; 4; 4; 29; (-1); (-1);
   (-1); (-1); (-1); (-1); (-1); 21]%Z.

(** src/config_file_yacc.c:798-805 *)
Definition yyr1 : list Z :=
  [0; 22; 23; 23; 24; 24; 25; 26; 27; 28; 28; 29; 29; 29; 29; 29; 29; 29; 30; 30;
   30; 30; 31; 31; 31; 31; 32; 32; 32; 32; 33; 33; 33; 34; 34; 34; 35; 36; 37; 38;
   38; 39; 40; 40]%Z.

(** src/config_file_yacc.c:808-815 *)
Definition yyr2 : list Z :=
  [0; 2; 0; 2; 1; 1; 3; 3; 2; 1; 2; 2; 2; 2; 2; 2; 2; 2; 1; 3;
   6; 6; 1; 3; 6; 6; 1; 3; 6; 6; 1; 3; 5; 1; 3; 6; 3; 2; 2; 1;
   2; 3; 1; 1]%Z.
