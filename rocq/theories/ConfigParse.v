(** * Model of src/config_file_yacc.y: the parser of configuration files *)

From Verif Require Import Base Stdio Filter Spoof ConfigLex.

Local Open Scope nat_scope.

(** ** The parser

    Bison's automaton for the grammar of src/config_file_yacc.y:73-173.  The language is
    regular; the states below are the positions within a rule, with the semantic values
    collected so far.  The automaton is checked against the grammar itself in
    ConfigProofs.v. *)
Inductive pstate :=
| P_top                                  (* between rules *)
| P_sequence                             (* SEQUENCE . *)
| P_named (name : str)                   (* SEQUENCE string . *)
| P_methods (some : bool)                (* sequence_open method_list .; false: no method yet *)
| P_simple (c : cleaner)                 (* UNCGI . or LOWER . *)
| P_method (c : cleaner)                 (* the key word of a method with options *)
| P_options (c : cleaner)                (* ... OPEN . *)
| P_table (c : cleaner) (builtin : bool) (* ... OPEN FILENAME . or BUILTIN . *)
| P_length                               (* MAX_LENGTH OPEN LENGTH . *)
| P_option (f : filter_t)                (* ... OPEN option . *)
| P_option_eol (f : filter_t)            (* ... OPEN option EOL . *)
| P_method_end                           (* ... CLOSE . *)
| P_sequence_end                         (* sequence_open method_list CLOSE . *)
| P_ignore                               (* IGNORE . *)
| P_ignores (some : bool)                (* ignore_open ignore_list . *)
| P_ignore_file                          (* FILENAME . *)
| P_ignored (s : str)                    (* FILENAME string . *)
| P_ignore_end.                          (* ignore_open ignore_list CLOSE . *)

(** The static variables of src/config_file_yacc.y:27-31: the sequences, the filters of the
    sequence being read, its name, and the files to ignore (the items in order; see
    Filelist.v for the array). *)
Record cf_state := mkCf {
  c_sequences : list sequence_t;
  c_filters : list filter_t;
  c_name : option str;
  c_ignore : list str
}.

(** src/config_file_yacc.y:324-341 [cf_append_filter].  The length is an int, converted to
    size_t. *)
Definition make_filter (c : cleaner) (builtin filename : option str) (max_length : Z) (remove_trailing : bool) : filter_t :=
  mkFilter c filename builtin remove_trailing (Z.to_N (max_length mod 2 ^ 64)) None.

Definition plain_filter (c : cleaner) : filter_t := make_filter c None None 0 false.

Definition cf_append_filter (f : filter_t) (s : cf_state) : cf_state :=
  mkCf (c_sequences s) (c_filters s ++ [f]) (c_name s) (c_ignore s).

(** src/config_file_yacc.y:273-321 [cf_append_sequence_list] *)
Definition set_sequence (filters : list filter_t) (source : str) (s : sequence_t) : sequence_t :=
  mkSequence (s_name s) filters (Some source).

Fixpoint put_sequence (name : str) (filters : list filter_t) (source : str) (l : list sequence_t) : list sequence_t :=
  match l with
  | [] => [mkSequence name filters (Some source)]
  | s :: r =>
    if str_eqb (s_name s) name then set_sequence filters source s :: r
    else s :: put_sequence name filters source r
  end.

Definition cf_append_sequence_list (filename : str) (s : cf_state) : cf_state :=
  let name := match c_name s with Some n => n | None => bs "default" end in
  mkCf (put_sequence name (c_filters s) filename (c_sequences s)) [] (Some name) (c_ignore s).

(** src/config_file_yacc.y:344-346 [cf_append_ignore_entry] *)
Definition cf_append_ignore_entry (f : str) (s : cf_state) : cf_state :=
  mkCf (c_sequences s) (c_filters s) (c_name s) (c_ignore s ++ [f]).

Definition string_token (t : token) : option str :=
  match t with T_qstring s | T_id s => Some s | _ => None end.

(** Methods: uncgi and lower take no options, the others may. *)
Definition method_state (k : keyword) : option pstate :=
  match k with
  | K_uncgi => Some (P_simple F_uncgi)
  | K_lower => Some (P_simple F_lower)
  | K_wipeup => Some (P_method F_wipeup)
  | K_iso8859_1 => Some (P_method F_iso8859_1)
  | K_utf_8 => Some (P_method F_utf_8)
  | K_safe => Some (P_method F_safe)
  | K_max_length => Some (P_method F_max_length)
  | _ => None
  end.

Definition takes_table (c : cleaner) : bool :=
  match c with F_iso8859_1 | F_utf_8 | F_safe => true | _ => false end.

(** One token; None is a syntax error. *)
Definition parse_step (filename : str) (p : pstate) (s : cf_state) (t : token) : option (pstate * cf_state) :=
  match p, t with
  | P_top, T_key K_sequence => Some (P_sequence, s)
  | P_top, T_key K_ignore => Some (P_ignore, s)
  | P_sequence, t => match string_token t with Some n => Some (P_named n, s) | None => None end
  | P_named n, T_open => Some (P_methods false, mkCf (c_sequences s) (c_filters s) (Some n) (c_ignore s))
  | P_methods _, T_key k => match method_state k with Some p => Some (p, s) | None => None end
  | P_methods true, T_close => Some (P_sequence_end, s)
  | P_simple c, T_eol => Some (P_methods true, cf_append_filter (plain_filter c) s)
  | P_method c, T_eol => Some (P_methods true, cf_append_filter (plain_filter c) s)
  | P_method c, T_open => Some (P_options c, s)
  | P_options c, T_close => Some (P_method_end, cf_append_filter (plain_filter c) s)
  | P_options c, T_key K_filename => if takes_table c then Some (P_table c false, s) else None
  | P_options c, T_key K_builtin => if takes_table c then Some (P_table c true, s) else None
  | P_options F_wipeup, T_key K_remove_trailing => Some (P_option (make_filter F_wipeup None None 0 true), s)
  | P_options F_max_length, T_key K_length => Some (P_length, s)
  | P_table c b, t =>
    match string_token t with
    | Some n => Some (P_option (if b then make_filter c (Some n) None 0 false else make_filter c None (Some n) 0 false), s)
    | None => None
    end
  | P_length, T_number n => Some (P_option (make_filter F_max_length None None n false), s)
  | P_option f, T_eol => Some (P_option_eol f, s)
  | P_option_eol f, T_close => Some (P_method_end, cf_append_filter f s)
  | P_method_end, T_eol => Some (P_methods true, s)
  | P_sequence_end, T_eol => Some (P_top, cf_append_sequence_list filename s)
  | P_ignore, T_open => Some (P_ignores false, s)
  | P_ignores _, T_key K_filename => Some (P_ignore_file, s)
  | P_ignores true, T_close => Some (P_ignore_end, s)
  | P_ignore_file, t => match string_token t with Some n => Some (P_ignored n, s) | None => None end
  | P_ignored f, T_eol => Some (P_ignores true, cf_append_ignore_entry f s)
  | P_ignore_end, T_eol => Some (P_top, s)
  | _, _ => None
  end.

(** What is printed on stdout on the way, and the outcome. *)
Definition wres (A : Type) : Type := str * res A.
Definition wbind {A B} (m : wres A) (k : A -> wres B) : wres B :=
  match snd m with
  | Ok a => (fst m ++ fst (k a), snd (k a))
  | UB w => (fst m, UB w)
  | Exit c => (fst m, Exit c)
  end.

(** yyparse, including the calls of yylex: a syntax error ends in yyerror, which exits
    (src/config_file_yacc.y:257-270; for its message see Startup.v).  Every round
    of the scanner takes a byte at least. *)
Fixpoint yyparse (fuel : nat) (filename : str) (p : pstate) (s : cf_state) (input : str) : wres cf_state :=
  match fuel, input with
  | S fuel', _ :: _ =>
    match lex_round input with
    | Ok (Lexed printed None, rest) =>
      let r := yyparse fuel' filename p s rest in (printed ++ fst r, snd r)
    | Ok (Lexed printed (Some t), rest) =>
      match parse_step filename p s t with
      | Some (p', s') => let r := yyparse fuel' filename p' s' rest in (printed ++ fst r, snd r)
      | None => (printed, Exit EXIT_FAILURE)
      end
    | UB w => ([], UB w)
    | Exit c => ([], Exit c)
    end
  | _, _ =>
    match p with
    | P_top => ([], Ok s)
    | _ => ([], Exit EXIT_FAILURE)
    end
  end.

(** A path as fopen and the first read see it: there is no such file (or it cannot be
    opened), it can be opened but not read (a directory), or it has contents. *)
Inductive file_at := NoFile | Unreadable | Contents (bytes : list byte).

(** A fatal error of the flex scanner: YY_EXIT_FAILURE *)
Definition YY_EXIT_FAILURE : N := 2.

(** src/config_file_yacc.y:180-255 [parse_config_file].  None as result is a NULL pointer
    returned for lack of a previous result.  The loop "do yyparse(); while (!feof(yyin))"
    runs once: yyparse returns at the end of the file only.  The variable current_name
    keeps its value from file to file but is set before every use. *)
Definition parse_config_file (files : str -> file_at) (filename : str) (previous : option config_t)
  : wres (option config_t) :=
  match files filename with
  | NoFile => ([], Ok previous)
  | Unreadable => ([], Exit YY_EXIT_FAILURE)
  | Contents bytes =>
    let sequences := match previous with Some c => cf_sequences c | None => [] end in
    let ignore := match previous with
                  | Some c => match cf_ignore c with Some l => l | None => [] end
                  | None => []
                  end in
    wbind (yyparse (length bytes) filename P_top (mkCf sequences [] None ignore) bytes)
      (fun s => ([], Ok (Some (mkConfig (c_sequences s) (Some (c_ignore s))))))
  end.
