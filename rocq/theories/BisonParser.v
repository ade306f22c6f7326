(** * Model of src/config_file_yacc.c: the parser as generated by bison

    ConfigParse.v models what the grammar of src/config_file_yacc.y says; this file models
    the C program that bison made of it: its tables, its stacks and its actions.  Not
    modelled: the extension of the stacks beyond YYINITDEPTH (reported as undefined
    behaviour; it does not come to that); error recovery, since yyerror does not return;
    yydestruct, which does nothing. *)

From Verif Require Import Base Stdio Filter Spoof ConfigLex ConfigParse ParserTables FlexScanner.

Local Open Scope nat_scope.

(** src/config_file_yacc.c:599, 601, 604, 613, 698, 982 *)
Definition YYFINAL : Z := 2.
Definition YYLAST : Z := 85.
Definition YYNTOKENS : Z := 22.
Definition YYMAXUTOK : Z := 276.
Definition YYPACT_NINF : Z := -29.
Definition YYINITDEPTH : nat := 200.

Definition YYEOF : Z := 0.
Definition YYerror : Z := 256.
Definition YYSYMBOL_YYEOF : Z := 0.
Definition YYSYMBOL_YYUNDEF : Z := 2.

(** src/config_file_yacc.c:618-621 *)
Definition YYTRANSLATE (x : Z) : res Z :=
  if ((0 <=? x) && (x <=? YYMAXUTOK))%Z then tbl yytranslate x else Ok YYSYMBOL_YYUNDEF.

(** ** Semantic values: the union YYSTYPE, src/config_file_yacc.y:43-47 *)
Inductive value := V_unset | V_string (s : str) | V_number (n : Z).

Definition as_string (v : value) : res str := match v with V_string s => Ok s | _ => UB Uninitialised end.
Definition as_number (v : value) : res Z := match v with V_number n => Ok n | _ => UB Uninitialised end.

(** ** The stacks: state and value, the top first; they are pushed and popped together. *)
Definition stacks := list (Z * value).

(** yyvsp[-i] *)
Definition yyvsp (i : nat) (st : stacks) : res value :=
  match nth_error st i with Some (_, v) => Ok v | None => UB BufferUnderread end.

(** ** The actions: src/config_file_yacc.c:1276-1428.  $$ is the value of $1 by default. *)
Definition add (f : filter_t) (s : cf_state) : res cf_state := Ok (cf_append_filter f s).

Definition yy_user_action (filename : str) (rule : Z) (st : stacks) (yyval : value) (s : cf_state) : res (value * cf_state) :=
  let plain c := do s' <- add (make_filter c None None 0 false) s; Ok (yyval, s') in
  let file c := do v <- yyvsp 2 st; do n <- as_string v; do s' <- add (make_filter c None (Some n) 0 false) s; Ok (yyval, s') in
  let built c := do v <- yyvsp 2 st; do n <- as_string v; do s' <- add (make_filter c (Some n) None 0 false) s; Ok (yyval, s') in
  match rule with
  | 7%Z => do v <- yyvsp 1 st; do n <- as_string v; Ok (yyval, mkCf (c_sequences s) (c_filters s) (Some n) (c_ignore s))
  | 8%Z => Ok (yyval, cf_append_sequence_list filename s)
  | 11%Z => plain F_uncgi
  | 12%Z => plain F_lower
  | 18%Z => plain F_iso8859_1
  | 19%Z => plain F_iso8859_1
  | 20%Z => file F_iso8859_1
  | 21%Z => built F_iso8859_1
  | 22%Z => plain F_utf_8
  | 23%Z => plain F_utf_8
  | 24%Z => file F_utf_8
  | 25%Z => built F_utf_8
  | 26%Z => plain F_safe
  | 27%Z => plain F_safe
  | 28%Z => file F_safe
  | 29%Z => built F_safe
  | 30%Z => plain F_wipeup
  | 31%Z => plain F_wipeup
  | 32%Z => do s' <- add (make_filter F_wipeup None None 0 true) s; Ok (yyval, s')
  | 33%Z => plain F_max_length
  | 34%Z => plain F_max_length
  | 35%Z => do v <- yyvsp 2 st; do n <- as_number v; do s' <- add (make_filter F_max_length None None n false) s; Ok (yyval, s')
  | 41%Z => do v <- yyvsp 1 st; do n <- as_string v; Ok (yyval, cf_append_ignore_entry n s)
  | 42%Z => do v <- yyvsp 0 st; do n <- as_string v; Ok (V_string n, s)
  | 43%Z => do v <- yyvsp 0 st; do n <- as_string v; Ok (V_string n, s)
  | _ => Ok (yyval, s)
  end.

(** ** yyreduce: src/config_file_yacc.c:1257-1465.  The value of an empty rule is garbage:
    the element above the top of the value stack. *)
Definition yyreduce (filename : str) (rule : Z) (st : stacks) (s : cf_state) : res (stacks * cf_state) :=
  do yylen <- tbl yyr2 rule;
  do yyval <- (if (yylen =? 0)%Z then Ok V_unset else yyvsp (Z.to_nat (yylen - 1)) st);
  do a <- yy_user_action filename rule st yyval s;
  let '(yyval', s') := a in
  if length st <=? Z.to_nat yylen then UB BufferUnderread
  else
    let st' := skipn (Z.to_nat yylen) st in
    match st' with
    | [] => UB BufferUnderread
    | (top, _) :: _ =>
      do lhs <- tbl yyr1 rule;
      let yylhs := (lhs - YYNTOKENS)%Z in
      do g <- tbl yypgoto yylhs;
      let yyi := (g + top)%Z in
      do k <- (if ((0 <=? yyi) && (yyi <=? YYLAST))%Z then tbl yycheck yyi else Ok (-1)%Z);
      do next <- (if ((0 <=? yyi) && (yyi <=? YYLAST) && (k =? top))%Z then tbl yytable yyi else tbl yydefgoto yylhs);
      Ok ((next, yyval') :: st', s')
    end.

(** yyerror, src/config_file_yacc.c:1702-1716: the message on stderr is in Generated.v. *)
Definition yyerror {A} : res A := Exit EXIT_FAILURE.

(** ** The main loop, src/config_file_yacc.c:1086-1465, between two calls of yylex

    [token] is the lookahead, None if there is none (YYEMPTY); the loop stops when it needs
    one. *)
Inductive pause := Wants (st : stacks) (s : cf_state) | Accepted (s : cf_state).

Definition yydefault (filename : str) (state : Z) (st : stacks) (s : cf_state) : res (stacks * cf_state) :=
  do rule <- tbl yydefact state;
  if (rule =? 0)%Z then yyerror else yyreduce filename rule st s.

Fixpoint yyrun (fuel : nat) (filename : str) (st : stacks) (token : option Z) (yylval : value) (s : cf_state) : res pause :=
  match fuel with
  | O => UB Uninitialised
  | S fuel' =>
    (* yysetstate *)
    if YYINITDEPTH <=? length st then UB BufferOverflow
    else match st with
    | [] => UB BufferUnderread
    | (state, _) :: _ =>
      if (state =? YYFINAL)%Z then Ok (Accepted s)
      else
        (* yybackup *)
        do n <- tbl yypact state;
        if (n =? YYPACT_NINF)%Z then
          (do r <- yydefault filename state st s; yyrun fuel' filename (fst r) token yylval (snd r))
        else match token with
        | None => Ok (Wants st s)
        | Some yychar =>
          do yytoken <- (if (yychar <=? YYEOF)%Z then Ok YYSYMBOL_YYEOF else YYTRANSLATE yychar);
          if (yychar =? YYerror)%Z then Exit EXIT_FAILURE
          else
            let i := (n + yytoken)%Z in
            do k <- (if (i <? 0)%Z then Ok (-1)%Z else if (YYLAST <? i)%Z then Ok (-1)%Z else tbl yycheck i);
            if ((i <? 0) || (YYLAST <? i) || negb (k =? yytoken))%Z then
              (do r <- yydefault filename state st s; yyrun fuel' filename (fst r) token yylval (snd r))
            else
              do x <- tbl yytable i;
              if (x <=? 0)%Z then
                (do r <- yyreduce filename (- x) st s; yyrun fuel' filename (fst r) token yylval (snd r))
              else yyrun fuel' filename ((x, yylval) :: st) None yylval s
        end
    end
  end.

(** Rounds between two tokens; a handful is enough. *)
Definition yy_rounds : nat := 16.

(** ** yylex: src/config_file_lex.c:795-1098

    The rounds of the scanner up to the next token; at the end of the file 0 is returned.
    Besides, what is printed on stdout. *)
Fixpoint yylex (fuel : nat) (reads : reader) (y : scanner) : str * res (option token * scanner) :=
  match fuel with
  | O => ([], UB Uninitialised)
  | S fuel' =>
    match yy_round reads y with
    | Ok (M_eof, y') => ([], Ok (None, y'))
    | Ok (M_rule act text, y') =>
      match yy_action act text with
      | Ok (Lexed printed None) => let r := yylex fuel' reads y' in (printed ++ fst r, snd r)
      | Ok (Lexed printed (Some t)) => (printed, Ok (Some t, y'))
      | UB w => ([], UB w)
      | Exit c => ([], Exit c)
      end
    | UB w => ([], UB w)
    | Exit c => ([], Exit c)
    end
  end.

(** Every round but the last takes a byte. *)
Definition lex_fuel (y : scanner) : nat := S (length (y_chars y) + length (y_unread y)).

(** src/config_file_yacc.h:53-72 *)
Definition key_code (k : keyword) : Z :=
  match k with
  | K_builtin => 258 | K_filename => 261 | K_ignore => 262 | K_iso8859_1 => 263 | K_length => 264
  | K_lower => 265 | K_max_length => 266 | K_remove_trailing => 268 | K_safe => 269 | K_sequence => 270
  | K_uncgi => 271 | K_utf_8 => 272 | K_wipeup => 273
  end.

Definition token_code (t : token) : Z :=
  match t with
  | T_key k => key_code k
  | T_open => 267 | T_close => 259 | T_eol => 260
  | T_qstring _ => 276 | T_id _ => 275 | T_number _ => 274
  end.

(** yylval keeps its value unless the token has one. *)
Definition set_lval (t : token) (v : value) : value :=
  match t with
  | T_qstring s => V_string s
  | T_id s => V_string s
  | T_number n => V_number n
  | _ => v
  end.

(** ** yyparse: src/config_file_yacc.c:1036-1626 *)
Fixpoint yyparse_from (fuel : nat) (reads : reader) (filename : str) (st : stacks) (look : option Z) (yylval : value)
  (s : cf_state) (y : scanner) : wres (cf_state * scanner) :=
  match fuel with
  | O => ([], UB Uninitialised)
  | S fuel' =>
    match yyrun yy_rounds filename st look yylval s with
    | Ok (Accepted s') => ([], Ok (s', y))
    | Ok (Wants st' s') =>
      let r := yylex (lex_fuel y) reads y in
      match snd r with
      | Ok (None, y') =>
        let q := yyparse_from fuel' reads filename st' (Some YYEOF) yylval s' y' in (fst r ++ fst q, snd q)
      | Ok (Some t, y') =>
        let q := yyparse_from fuel' reads filename st' (Some (token_code t)) (set_lval t yylval) s' y' in
        (fst r ++ fst q, snd q)
      | UB w => (fst r, UB w)
      | Exit c => (fst r, Exit c)
      end
    | UB w => ([], UB w)
    | Exit c => ([], Exit c)
    end
  end.

(** Every token takes a byte. *)
Definition parse_fuel (y : scanner) : nat := 2 + lex_fuel y.

Definition yyparse_c (reads : reader) (filename : str) (yylval : value) (s : cf_state) (y : scanner) : wres (cf_state * scanner) :=
  yyparse_from (parse_fuel y) reads filename [(0%Z, V_unset)] None yylval s y.

(** ** parse_config_file: src/config_file_yacc.c:1629-1700

    [y] is the scanner as the previous file left it.  The loop "while (!feof(yyin))" runs
    once: yyparse returns after the end of the file only. *)
Definition open_on (bytes : list byte) (y : scanner) : scanner :=
  mkScanner (y_chars y) (y_text y) (y_size y) (y_status y) bytes.

(** yy_create_buffer, src/config_file_lex.c:773 *)
Definition yy_created : scanner := yy_flushed YY_BUF_SIZE [].

Definition parse_config_file_c (reads : reader) (files : str -> file_at) (filename : str) (yylval : value)
  (previous : option config_t) (y : scanner) : wres (option config_t * scanner) :=
  match files filename with
  | NoFile => ([], Ok (previous, y))
  | Unreadable => ([], Exit YY_EXIT_FAILURE)
  | Contents bytes =>
    let sequences := match previous with Some c => cf_sequences c | None => [] end in
    let ignore := match previous with
                  | Some c => match cf_ignore c with Some l => l | None => [] end
                  | None => []
                  end in
    wbind (yyparse_c reads filename yylval (mkCf sequences [] None ignore) (open_on bytes y))
      (fun r => ([], Ok (Some (mkConfig (c_sequences (fst r)) (Some (c_ignore (fst r)))), snd r)))
  end.
