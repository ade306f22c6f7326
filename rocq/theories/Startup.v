(** * Model of what the program prints while it starts

    src/parse_options.c (with getopt_long), src/config_file.c, src/config_file_yacc.y,
    src/parse_table.c, src/filter.c and src/sequence.c once more, with all that they print
    until the work begins.  The results are those of Options.v, ConfigLoad.v,
    ConfigParse.v, ParseTable.v and Filter.v (see StartProofs.v). *)

From Verif Require Import Base Stdio Table ParseTable GenBuiltin Filter Spoof Filelist Prog Warnings File ConfigLex ConfigParse ConfigLoad Options.

Local Open Scope nat_scope.

(** What is printed on stdout, if anything. *)
Definition print_out (text : str) : talk unit :=
  match text with [] => done tt | _ => say Stdout text end.

Definition aloud {A} (m : wres A) : talk A :=
  let% _ := print_out (fst m) in quietly (snd m).

(** ** The command line *)

(** The messages of glibc's getopt_long.  setlocale has not been called yet: they are in
    English. *)
Definition invalid_option (prog : str) (c : byte) : str := prog ++ bs ": invalid option -- '" ++ [c] ++ bs "'".
Definition argument_missing (prog : str) (c : byte) : str :=
  prog ++ bs ": option requires an argument -- '" ++ [c] ++ bs "'".
Definition unrecognized_option (prog arg : str) : str := prog ++ bs ": unrecognized option '--" ++ arg ++ bs "'".
Definition no_argument (prog name : str) : str := prog ++ bs ": option '--" ++ name ++ bs "' doesn't allow an argument".
Definition ambiguous_option (prog arg : str) (names : list str) : str :=
  prog ++ bs ": option '--" ++ arg ++ bs "' is ambiguous; possibilities:" ++
  flat_map (fun n => bs " '--" ++ n ++ bs "'") names.

Section getopt.
  Variable prog : str.
  Variable letters : list (byte * bool).
  Variable longopts : list (str * report).

  (** The codes of [cluster], [long_code] and [getopt_long], each with the message printed
      before it is returned. *)
  Fixpoint cluster_says (s : str) : list (code * option str) * option byte :=
    match s with
    | [] => ([], None)
    | c :: r =>
      match takes_argument letters c with
      | None => let (l, p) := cluster_says r in ((BAD, Some (invalid_option prog c)) :: l, p)
      | Some false => let (l, p) := cluster_says r in ((Short c None, None) :: l, p)
      | Some true => match r with [] => ([], Some c) | _ => ([(Short c (Some r), None)], None) end
      end
    end.

  Definition long_code_says (arg : str) : code * option str :=
    let (name, equals) := upto_equals arg in
    let found (o : str * report) :=
      if equals then (BAD, Some (no_argument prog (fst o))) else (coded (snd o), None) in
    match find (fun o => str_eqb (fst o) name) longopts with
    | Some o => found o
    | None =>
      match filter (fun o => is_prefix name (fst o)) longopts with
      | [] => (BAD, Some (unrecognized_option prog arg))
      | [o] => found o
      | os => (BAD, Some (ambiguous_option prog arg (map fst os)))
      end
    end.

  Fixpoint getopt_long_says (posixly_correct : bool) (args skipped : list str) : list (code * option str) * list str :=
    match args with
    | [] => ([], skipped)
    | a :: rest =>
      match a with
      | c :: (d :: r) as a' =>
        if negb (beq c "-") then
          if posixly_correct then ([], args) else getopt_long_says posixly_correct rest (skipped ++ [a])
        else if beq d "-" then
          match r with
          | [] => ([], skipped ++ rest)
          | _ =>
            let (l, files) := getopt_long_says posixly_correct rest skipped in
            (long_code_says r :: l, files)
          end
        else
          match cluster_says a' with
          | (codes, None) =>
            let (l, files) := getopt_long_says posixly_correct rest skipped in
            (codes ++ l, files)
          | (codes, Some p) =>
            match rest with
            | [] => (codes ++ [(BAD, Some (argument_missing prog p))], skipped)
            | v :: rest' =>
              let (l, files) := getopt_long_says posixly_correct rest' skipped in
              (codes ++ (Short p (Some v), None) :: l, files)
            end
          end
      | _ => if posixly_correct then ([], args) else getopt_long_says posixly_correct rest (skipped ++ [a])
      end
    end.
End getopt.

(** src/parse_options.c:144-222: the switch, with the message of line 218 *)
Definition option_code_says (package_string : str) (c : code) (o : options_t) : talk options_t :=
  match c with
  | Short l _ =>
    if existsb (beq l) (bs "hfLnrsvV?") then aloud (option_code package_string c o)
    else let% _ := complain (bs "unknown option: " ++ [l]) in quietly (Exit EXIT_FAILURE)
  | Long _ => aloud (option_code package_string c o)
  end.

Fixpoint option_codes_says (package_string : str) (cs : list (code * option str)) (o : options_t) : talk options_t :=
  match cs with
  | [] => done o
  | (c, message) :: rest =>
    let% _ := match message with Some m => complain m | None => done tt end in
    let% o := option_code_says package_string c o in
    option_codes_says package_string rest o
  end.

(** basename cuts trailing slashes off argv[0], which getopt_long prints. *)
Definition program_name (argv : list str) : str :=
  match argv with
  | a :: _ => match skip_slashes (rev a) with [] => a | r => rev r end
  | [] => []
  end.

(** src/parse_options.c:126-245 [parse_options_getopt] *)
Definition parse_options_says (pf : platform) (getenv : str -> option str) (package_string : str) (argv : list str)
  : talk options_t :=
  let posixly_correct := match getenv (bs "POSIXLY_CORRECT") with Some _ => true | None => false end in
  let (codes, files) := getopt_long_says (program_name argv) letters longopts posixly_correct (tl argv) [] in
  let% o := option_codes_says package_string codes (options_start pf getenv (hd_error argv)) in
  if o_list_sequences o then done o
  else
    match files with
    | [] =>
      if o_is_inline_mode o then done (set_files filelist_init o)
      else let% _ := print_out (usage o) in quietly (Exit EXIT_FAILURE)
    | _ => quietly (do l <- put_files filelist_init files; Ok (set_files l o))
    end.

(** ** Configuration files *)

(** src/config_file_yacc.y:257-270 [yyerror], called with "syntax error" by yyparse: [text]
    is yytext *)
Definition yyerror_says {A} (filename : str) (line : N) (text : str) : talk A :=
  let% _ := complain (bs "detox: error parsing config file " ++ filename ++ bs ": syntax error" ++ [newline] ++
                      [tab] ++ bs "line " ++ printf_d line ++ bs ": " ++ cstr text) in
  quietly (Exit EXIT_FAILURE).

(** One round of the scanner: what it does, yytext, the newlines counted by
    src/config_file_lex.l:26, and the rest. *)
Definition lex_round_says (input : str) : res (lexed * str * N * str) :=
  match best_match rules input None with
  | Some (r, n) =>
    do l <- lex_action r (firstn n input);
    Ok (l, firstn n input, match r with R_newline => 1%N | _ => 0%N end, skipn n input)
  | None => Ok (Lexed [] None, firstn 1 input, 0%N, tl input)
  end.

(** yyparse; [line] is config_file_lineno.  At the end of the file yytext is empty. *)
Fixpoint yyparse_says (fuel : nat) (filename : str) (p : pstate) (s : cf_state) (line : N) (input : str)
  : talk (cf_state * N) :=
  match fuel, input with
  | S fuel', _ :: _ =>
    let% (Lexed printed t, text, newlines, rest) := quietly (lex_round_says input) in
    let% _ := print_out printed in
    match t with
    | None => yyparse_says fuel' filename p s (line + newlines) rest
    | Some t =>
      match parse_step filename p s t with
      | Some (p', s') => yyparse_says fuel' filename p' s' (line + newlines) rest
      | None => yyerror_says filename (line + newlines) text
      end
    end
  | _, _ =>
    match p with
    | P_top => done (s, line)
    | _ => yyerror_says filename line []
    end
  end.

(** src/config_file_yacc.y:180-255 [parse_config_file]; the line counter goes on from file
    to file.  The scanner's fatal error is src/config_file_lex.c:688, 1774-1778. *)
Definition parse_config_file_says (files : str -> file_at) (filename : str) (line : N) (previous : option config_t)
  : talk (option config_t * N) :=
  match files filename with
  | NoFile => done (previous, line)
  | Unreadable => let% _ := complain (bs "input in flex scanner failed") in quietly (Exit YY_EXIT_FAILURE)
  | Contents bytes =>
    let sequences := match previous with Some c => cf_sequences c | None => [] end in
    let ignore := match previous with
                  | Some c => match cf_ignore c with Some l => l | None => [] end
                  | None => []
                  end in
    let% (s, line) := yyparse_says (length bytes) filename P_top (mkCf sequences [] None ignore) line bytes in
    done (Some (mkConfig (c_sequences s) (Some (c_ignore s))), line)
  end.

Definition parse_if_short_says (files : str -> file_at) (path : str) (line : N) (previous : option config_t)
  : talk (option config_t * N) :=
  if (strlen path <? MAX_PATH_LEN)%N then parse_config_file_says files path line previous else done (previous, line).

Definition or_else_says (files : str -> file_at) (path : str) (line : N) (c : option config_t) : talk (option config_t * N) :=
  match c with
  | None => parse_config_file_says files path line None
  | Some _ => done (c, line)
  end.

(** src/config_file.c:37-97 [config_file_load] with the message of line 52 *)
Definition config_file_load_says (env : environment) (check_config_file : option str) : talk config_t :=
  let files := e_files env in
  match check_config_file with
  | Some path =>
    let% (c, _) := parse_config_file_says files path 1 None in
    match c with
    | Some c => done c
    | None => let% _ := complain (bs "detox: unable to open: " ++ path) in quietly (Exit EXIT_FAILURE)
    end
  | None =>
    let% (c, line) := match e_sysconfdir env with
                      | Some d => parse_if_short_says files (d ++ bs "/detoxrc") 1 None
                      | None => done (None, 1%N)
                      end in
    let% (c, line) := or_else_says files (bs "/etc/detoxrc") line c in
    let% (c, line) := or_else_says files (bs "/usr/local/etc/detoxrc") line c in
    let% (c, line) := match e_getenv env (bs "HOME") with
                      | Some h => parse_if_short_says files (h ++ bs "/.detoxrc") line c
                      | None => done (c, line)
                      end in
    let% (c, line) := match e_getenv env (bs "XDG_CONFIG_HOME") with
                      | Some h => parse_if_short_says files (h ++ bs "/detox/detoxrc") line c
                      | None => done (c, line)
                      end in
    match c with
    | Some c => done c
    | None => done spoof_config_file
    end
  end.

(** ** Tables *)

Definition in_quotes (s : str) : str := [quote] ++ s ++ [quote].

(** src/parse_table.c:188 *)
Definition row_rejected (code : N) (text : str) : str :=
  bs "Failed to add row 0x" ++ hex4 code ++ bs " " ++ in_quotes text ++ bs " to translation table".

(** The row on a line whose row is rejected. *)
Definition row_on (work : str) : res (N * str) :=
  match scan_int work with
  | inl (code, n) => do r <- at_offset work (Some n); do text <- scan_text r []; Ok (Z.to_N code, text)
  | inr _ => UB Uninitialised
  end.

Fixpoint parse_table_loop_says (fuel : nat) (locale : str) (input : list byte) (st : pt_state) : talk (option table) :=
  match fuel with
  | O => done (Some (pt_table st))
  | S fuel' =>
    match next_line input with
    | None => done (Some (pt_table st))
    | Some (bytes, rest) =>
      let% next := quietly (parse_table_line locale (cstr bytes) st) in
      match next with
      | None =>
        let% (code, text) := quietly (row_on (cstr bytes)) in
        let% _ := complain (row_rejected code text) in done None
      | Some st' => parse_table_loop_says fuel' locale rest st'
      end
    end
  end.

(** src/parse_table.c:27-202 [parse_table] of a file that can be read *)
Definition parse_table_says (locale : str) (contents : list byte) : talk (option table) :=
  parse_table_loop_says (length contents) locale contents
    (mkPt false None (table_init (Z.of_nat (table_capacity (length contents))))).

(** What the program finds when it is started: configuration and table files and the
    environment; the name setlocale(LC_CTYPE, "") returns; the platform (its ctype is the
    one of the locale that is current when names are cleaned); PACKAGE_STRING; which of the
    paths that cannot be opened stat finds, with the text of strerror for fopen's error. *)
Record system := mkSystem {
  m_env : environment;
  m_locale : str;
  m_platform : platform;
  m_package : str;
  m_denied : str -> option str
}.

(** [parse_table] as a function of the path, with the messages of lines 76 and 188.  A
    directory can be opened but not read: an empty table. *)
Definition table_at_says (sys : system) (path : str) : talk (option table) :=
  match e_files (m_env sys) path with
  | NoFile =>
    match m_denied sys path with
    | Some message => let% _ := complain (bs "Unable to open translation table: " ++ message) in done None
    | None => done None
    end
  | Unreadable => parse_table_says (m_locale sys) []
  | Contents bytes => parse_table_says (m_locale sys) bytes
  end.

(** src/filter.c:30-66 [filter_find_table] *)
Definition try_table_says (parse : str -> talk (option table)) (path : str) : talk (option table) :=
  if (strlen path <? MAX_PATH_LEN)%N then parse path else done None.

Definition filter_find_table_says (datadir : option str) (parse : str -> talk (option table)) (name : str)
  : talk (option table) :=
  let% t := match datadir with
            | Some d => try_table_says parse (d ++ bs "/detox/" ++ name)
            | None => done None
            end in
  match t with
  | Some t => done (Some t)
  | None =>
    let% t := try_table_says parse (bs "/usr/share/detox/" ++ name) in
    match t with
    | Some t => done (Some t)
    | None => try_table_says parse (bs "/usr/local/share/detox/" ++ name)
    end
  end.

(** src/filter.c:131-184 [filter_load_table] with the messages of lines 150, 171 and 178 *)
Definition filter_load_table_says (datadir : option str) (parse : str -> talk (option table)) (f : filter_t)
  : talk (option table) :=
  let fails (text : str) := let% _ := complain text in quietly (Exit EXIT_FAILURE) in
  match default_table_name (f_cleaner f) with
  | None => done None
  | Some check_filename =>
    match f_builtin f with
    | Some b =>
      match filter_load_builtin_by_filename b with
      | Some t => done (Some t)
      | None => fails (bs "detox: unable to locate builtin table " ++ in_quotes b)
      end
    | None =>
      match f_filename f with
      | None =>
        let% t := filter_find_table_says datadir parse check_filename in
        match t with
        | Some t => done (Some t)
        | None =>
          match filter_load_builtin (f_cleaner f) with
          | Some t => done (Some t)
          | None => fails (bs "detox: unable to locate translation table or fall back")
          end
        end
      | Some file =>
        let% t := parse file in
        match t with
        | Some t => done (Some t)
        | None => fails (bs "detox: unable to parse file: " ++ in_quotes file)
        end
      end
    end
  end.

(** src/sequence.c:75-88 [sequence_review] *)
Fixpoint review_filters_says (datadir : option str) (parse : str -> talk (option table)) (fs : list filter_t)
  : talk (list filter_t) :=
  match fs with
  | [] => done []
  | f :: rest =>
    let% t := filter_load_table_says datadir parse f in
    let% rest' := review_filters_says datadir parse rest in
    done (with_table f t :: rest')
  end.

Definition sequence_review_says (datadir : option str) (parse : str -> talk (option table)) (s : sequence_t)
  : talk sequence_t :=
  let% fs := review_filters_says datadir parse (s_filters s) in
  done (mkSequence (s_name s) fs (s_source s)).
