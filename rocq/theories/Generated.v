(** * The configuration as read by the generated scanner and parser, with what they print

    FlexScanner.v and BisonParser.v once more, with the line counter, yytext and yyerror; and
    src/config_file.c on top of them. *)

From Verif Require Import Base Stdio Filter Spoof Prog Warnings ConfigLex ConfigParse ConfigLoad Startup ParserTables FlexScanner BisonParser.

Local Open Scope nat_scope.

(** src/config_file_lex.c:851-855: the action that counts lines *)
Definition lines_counted (act : Z) : N := if (act =? 3)%Z then 1 else 0.

(** src/config_file_lex.c:795-1098 [yylex]; the result also has yytext and config_file_lineno.
    While an action runs, and after it, yytext is NUL-terminated (YY_DO_BEFORE_ACTION); at the
    end of the file it is what is at the start of the buffer. *)
Fixpoint yylex_says (fuel : nat) (reads : reader) (line : N) (y : scanner) : talk (option token * str * N * scanner) :=
  match fuel with
  | O => quietly (UB Uninitialised)
  | S fuel' =>
    let% (m, y) := quietly (yy_round reads y) in
    match m with
    | M_eof => done (None, skipn (y_text y) (y_chars y ++ EOBs), line, y)
    | M_rule act text =>
      let% Lexed printed t := quietly (yy_action act text) in
      let% _ := print_out printed in
      match t with
      | None => yylex_says fuel' reads (line + lines_counted act) y
      | Some t => done (Some t, text, (line + lines_counted act)%N, y)
      end
    end
  end.

(** src/config_file_yacc.c:1036-1626 [yyparse].  [yyrun] exits only by calling yyerror
    (src/config_file_yacc.c:1702-1716); [text] is yytext. *)
Fixpoint yyparse_from_says (fuel : nat) (reads : reader) (filename : str) (st : stacks) (look : option Z) (yylval : value)
  (s : cf_state) (text : str) (line : N) (y : scanner) : talk (cf_state * N * scanner) :=
  match fuel with
  | O => quietly (UB Uninitialised)
  | S fuel' =>
    match yyrun yy_rounds filename st look yylval s with
    | Ok (Accepted s') => done (s', line, y)
    | Ok (Wants st' s') =>
      let% (t, text, line, y) := yylex_says (lex_fuel y) reads line y in
      match t with
      | None => yyparse_from_says fuel' reads filename st' (Some YYEOF) yylval s' text line y
      | Some t => yyparse_from_says fuel' reads filename st' (Some (token_code t)) (set_lval t yylval) s' text line y
      end
    | UB w => quietly (UB w)
    | Exit _ => yyerror_says filename line text
    end
  end.

(** src/config_file_yacc.c:1629-1700 [parse_config_file] *)
Definition parse_config_file_generated (reads : reader) (files : str -> file_at) (filename : str) (yylval : value) (line : N)
  (previous : option config_t) (y : scanner) : talk (option config_t * N * scanner) :=
  match files filename with
  | NoFile => done (previous, line, y)
  | Unreadable => let% _ := complain (bs "input in flex scanner failed") in quietly (Exit YY_EXIT_FAILURE)
  | Contents bytes =>
    let sequences := match previous with Some c => cf_sequences c | None => [] end in
    let ignore := match previous with
                  | Some c => match cf_ignore c with Some l => l | None => [] end
                  | None => []
                  end in
    let y := open_on bytes y in
    let% (s, line, y) :=
      yyparse_from_says (parse_fuel y) reads filename [(0%Z, V_unset)] None yylval (mkCf sequences [] None ignore) [] line y in
    done (Some (mkConfig (c_sequences s) (Some (c_ignore s))), line, y)
  end.

Definition parse_if_short_generated (reads : reader) (files : str -> file_at) (path : str) (yylval : value) (line : N)
  (previous : option config_t) (y : scanner) : talk (option config_t * N * scanner) :=
  if (strlen path <? MAX_PATH_LEN)%N then parse_config_file_generated reads files path yylval line previous y
  else done (previous, line, y).

Definition or_else_generated (reads : reader) (files : str -> file_at) (path : str) (yylval : value) (line : N)
  (c : option config_t) (y : scanner) : talk (option config_t * N * scanner) :=
  match c with
  | None => parse_config_file_generated reads files path yylval line None y
  | Some _ => done (c, line, y)
  end.

(** How the bytes of a file arrive, and what yylval is at its beginning, may be different for
    each of the files. *)
Record arrival := mkArrival { ar_reads : nat -> reader; ar_lval : nat -> value }.

(** src/config_file.c:37-97 [config_file_load] *)
Definition config_file_load_generated (arr : arrival) (env : environment) (check_config_file : option str)
  : talk config_t :=
  let files := e_files env in
  let reads := ar_reads arr in
  let lval := ar_lval arr in
  let y := yy_created in
  match check_config_file with
  | Some path =>
    let% (c, _, _) := parse_config_file_generated (reads 0) files path (lval 0) 1 None y in
    match c with
    | Some c => done c
    | None => let% _ := complain (bs "detox: unable to open: " ++ path) in quietly (Exit EXIT_FAILURE)
    end
  | None =>
    let% (c, line, y) := match e_sysconfdir env with
                         | Some d => parse_if_short_generated (reads 0) files (d ++ bs "/detoxrc") (lval 0) 1 None y
                         | None => done (None, 1%N, y)
                         end in
    let% (c, line, y) := or_else_generated (reads 1) files (bs "/etc/detoxrc") (lval 1) line c y in
    let% (c, line, y) := or_else_generated (reads 2) files (bs "/usr/local/etc/detoxrc") (lval 2) line c y in
    let% (c, line, y) := match e_getenv env (bs "HOME") with
                         | Some h => parse_if_short_generated (reads 3) files (h ++ bs "/.detoxrc") (lval 3) line c y
                         | None => done (c, line, y)
                         end in
    let% (c, line, y) := match e_getenv env (bs "XDG_CONFIG_HOME") with
                         | Some h => parse_if_short_generated (reads 4) files (h ++ bs "/detox/detoxrc") (lval 4) line c y
                         | None => done (c, line, y)
                         end in
    match c with
    | Some c => done c
    | None => done spoof_config_file
    end
  end.
