(** * Model of the configuration in memory

    src/config_file.c, src/config_file_yacc.y, src/config_file_lex.l, and what they use of
    src/filter.c and src/sequence.c.  Compare ConfigParse.v and Startup.v, where sequences and
    filters are lists.  The parser is that of the grammar, as there; PropGenParser.v has that
    bison's program does the same.  The memory of the scanner (its buffer) and of the FILEs is
    that of flex and the library. *)

From Verif Require Import Base Stdio Filter Spoof ConfigLex ConfigParse Prog Warnings Startup Mem Words CFilelist.

Local Open Scope nat_scope.

(** ** The structures *)

(** src/detox_struct.h:59-67 [filter_t]: the members, and the size with 64 bit pointers *)
Definition FT_next := 0.
Definition FT_cleaner := 1.
Definition FT_filename := 2.
Definition FT_builtin := 3.
Definition FT_remove_trailing := 4.
Definition FT_max_length := 5.
Definition FT_table := 6.
Definition FT_members := 7.
Definition sizeof_filter_t : N := 56.

(** src/detox_struct.h:72-77 [sequence_t] *)
Definition SQ_next := 0.
Definition SQ_name := 1.
Definition SQ_filters := 2.
Definition SQ_source_filename := 3.
Definition SQ_members := 4.
Definition sizeof_sequence_t : N := 32.

(** src/detox_struct.h:82-85 [config_file_t] *)
Definition CF_sequences := 0.
Definition CF_files_to_ignore := 1.
Definition CF_members := 2.
Definition sizeof_config_file_t : N := 16.

(** src/detox_struct.h:17-25 *)
Definition cleaner_code (c : cleaner) : Z :=
  match c with
  | F_iso8859_1 => 1
  | F_lower => 2
  | F_max_length => 3
  | F_safe => 4
  | F_uncgi => 5
  | F_utf_8 => 6
  | F_wipeup => 7
  | F_unknown v => int_of v
  end.

(** strdup, without a check of the result: NULL if there is no memory *)
Definition c_raw_strdup_of {al : allocator} (s : str) : mem (option ptr) := fun h =>
  match refusal_of h (size_t (strlen s + 1)) with
  | Some _ => done (None, h)
  | None => let% (p, h') := c_strdup_of s h in done (Some p, h')
  end.

(** ** The scanner

    The tokens with their values.  A string is NULL if there was no memory for it. *)
Inductive lexeme :=
| X_key (k : keyword) | X_open | X_close | X_eol | X_string (p : option ptr) | X_number (n : Z).

(** ** The parser

    The positions as in ConfigParse.v, with the values in memory. *)
Record arguments := mkArguments { a_cleaner : cleaner; a_builtin : option ptr; a_filename : option ptr; a_max_length : Z; a_remove_trailing : Z }.

Inductive position :=
| Q_top
| Q_sequence
| Q_named (name : option ptr)
| Q_methods (some : bool)
| Q_simple (c : cleaner)
| Q_method (c : cleaner)
| Q_options (c : cleaner)
| Q_table (c : cleaner) (builtin : bool)
| Q_length
| Q_option (a : arguments)
| Q_option_eol (a : arguments)
| Q_method_end
| Q_sequence_end
| Q_ignore
| Q_ignores (some : bool)
| Q_ignore_file
| Q_ignored (s : option ptr)
| Q_ignore_end.

Definition q_method (k : keyword) : option position :=
  match k with
  | K_uncgi => Some (Q_simple F_uncgi)
  | K_lower => Some (Q_simple F_lower)
  | K_wipeup => Some (Q_method F_wipeup)
  | K_iso8859_1 => Some (Q_method F_iso8859_1)
  | K_utf_8 => Some (Q_method F_utf_8)
  | K_safe => Some (Q_method F_safe)
  | K_max_length => Some (Q_method F_max_length)
  | _ => None
  end.

Definition plain_arguments (c : cleaner) : arguments := mkArguments c None None 0 0.

(** src/config_file_yacc.y:27-31: the static variables *)
Record statics := mkStatics {
  v_sequences : option ptr;       (* cf_sequence_ret *)
  v_last_sequence : option ptr;   (* cf_sequence_current *)
  v_filters : option ptr;         (* cf_filter_ret *)
  v_last_filter : option ptr;     (* cf_filter_current *)
  v_name : option ptr;            (* current_name *)
  v_source : option ptr;          (* current_filename *)
  v_ignore : option ptr           (* files_to_ignore *)
}.

Section config.

Context {al : allocator}.

(** src/config_file_lex.l:45-54; index yyleng - 2 of the copy *)
Definition c_lex_qstring (text : str) : wmem (option lexeme) :=
  let$ q := bytes (c_raw_strdup_of (cstr (tl text))) in
  let$ p := deref q in
  let last := plus p (length text - 2) in
  let$ c := bytes (load last) in
  let$ _ := (if negb (beq c quote) then saying (print_out unterminated) else bytes (store last NUL)) in
  wret (Some (X_string q)).

(** src/config_file_lex.l:22-66 *)
Definition c_lex_action (r : rule) (text : str) : wmem (option lexeme) :=
  match r with
  | R_blank | R_comment | R_newline => wret None
  | R_key k => wret (Some (X_key k))
  | R_open => wret (Some X_open)
  | R_close => wret (Some X_close)
  | R_qstring => c_lex_qstring text
  | R_id => let$ q := bytes (c_raw_strdup_of text) in wret (Some (X_string q))
  | R_number => wret (Some (X_number (atoi text)))
  | R_eol => wret (Some X_eol)
  end.

(** One round of the scanner, as in Startup.v: the token, yytext, the newlines and the rest *)
Definition c_lex_round (input : str) : wmem (option lexeme * str * N * str) :=
  match best_match rules input None with
  | Some (r, n) =>
    let$ l := c_lex_action r (firstn n input) in
    wret (l, firstn n input, match r with R_newline => 1%N | _ => 0%N end, skipn n input)
  | None => wret (None, firstn 1 input, 0%N, tl input)
  end.

(** src/filter.c:69-80 *)
Definition c_filter_init (cleaner : Z) : wmem ptr :=
  let$ ret := new_words sizeof_filter_t FT_members in
  let$ _ := clear ret FT_members in
  let$ _ := assign ret FT_cleaner (Int cleaner) in
  wret ret.

(** src/sequence.c:56-66 *)
Definition c_sequence_init (name : ptr) : wmem ptr :=
  let$ ret := new_words sizeof_sequence_t SQ_members in
  let$ _ := clear ret SQ_members in
  let$ copy := bytes (c_strdup name) in
  let$ _ := assign ret SQ_name (Ptr copy) in
  wret ret.

(** src/config_file.c:19-28 *)
Definition c_config_file_init : wmem ptr :=
  let$ ret := new_words sizeof_config_file_t CF_members in
  let$ _ := clear ret CF_members in
  wret ret.

(** [(p == NULL) ? NULL : wrapped_strdup(p)] *)
Definition c_copy (p : option ptr) : wmem (option ptr) :=
  match p with None => wret None | Some p => let$ q := bytes (c_strdup p) in wret (Some q) end.

(** src/config_file_yacc.y:328-332 *)
Definition c_make_filter (a : arguments) : wmem ptr :=
  let$ work := c_filter_init (cleaner_code (a_cleaner a)) in
  let$ builtin := c_copy (a_builtin a) in
  let$ _ := assign work FT_builtin (word_of builtin) in
  let$ filename := c_copy (a_filename a) in
  let$ _ := assign work FT_filename (word_of filename) in
  let$ _ := assign work FT_max_length (Int (Z.of_N (size_of (a_max_length a)))) in
  let$ _ := assign work FT_remove_trailing (Int (a_remove_trailing a)) in
  wret work.

(** src/config_file_yacc.y:324-341 *)
Definition c_cf_append_filter (a : arguments) (v : statics) : wmem statics :=
  let$ work := c_make_filter a in
  match v_filters v with
  | None => wret (mkStatics (v_sequences v) (v_last_sequence v) (Some work) (Some work) (v_name v) (v_source v) (v_ignore v))
  | Some _ =>
    let$ last := deref (v_last_filter v) in
    let$ _ := assign last FT_next (Ptr work) in
    wret (mkStatics (v_sequences v) (v_last_sequence v) (v_filters v) (Some work) (v_name v) (v_source v) (v_ignore v))
  end.

(** src/config_file_yacc.y:282-294: the sequence of that name, or NULL *)
Definition c_find_sequence (sequences : option ptr) (name : ptr) : wmem (option ptr) :=
  wwhile (fun work =>
    match work with
    | None => wret (inr None)
    | Some w =>
      let$ n := ptr_at w SQ_name in
      let$ n := deref n in
      let$ same := bytes (c_equal n name) in
      if same : bool then wret (inr (Some w))
      else
        let$ next := ptr_at w SQ_next in
        wret (inl next)
    end) sequences.

(** src/config_file_yacc.y:273-321 *)
Definition c_cf_append_sequence_list (v : statics) : wmem statics :=
  let$ name := (match v_name v with Some n => wret n | None => bytes (c_strdup_of (bs "default")) end) in
  let$ found := c_find_sequence (v_sequences v) name in
  let$ (work, sequences, last) :=
    (match found with
     | Some work => wret (work, v_sequences v, v_last_sequence v)
     | None =>
       let$ work := c_sequence_init name in
       match v_sequences v with
       | None => wret (work, Some work, Some work)
       | Some _ =>
         let$ last := deref (v_last_sequence v) in
         let$ _ := assign last SQ_next (Ptr work) in
         wret (work, v_sequences v, Some work)
       end
     end) in
  let$ _ := assign work SQ_filters (word_of (v_filters v)) in
  let$ source := deref (v_source v) in
  let$ copy := bytes (c_strdup source) in
  let$ _ := assign work SQ_source_filename (Ptr copy) in
  wret (mkStatics sequences last None None (Some name) (v_source v) (v_ignore v)).

(** src/config_file_yacc.y:344-346 *)
Definition c_cf_append_ignore_entry (file : option ptr) (v : statics) : wmem statics :=
  let$ file := deref file in
  let$ _ := c_filelist_put (v_ignore v) file in
  wret v.

(** One token; None is a syntax error. *)
Definition c_parse_step (q : position) (v : statics) (t : lexeme) : option (wmem (position * statics)) :=
  let go q := Some (wret (q, v)) in
  let filter a q := Some (let$ v := c_cf_append_filter a v in wret (q, v)) in
  match q, t with
  | Q_top, X_key K_sequence => go Q_sequence
  | Q_top, X_key K_ignore => go Q_ignore
  | Q_sequence, X_string n => go (Q_named n)
  | Q_named n, X_open =>
    Some (wret (Q_methods false, mkStatics (v_sequences v) (v_last_sequence v) (v_filters v) (v_last_filter v) n (v_source v) (v_ignore v)))
  | Q_methods _, X_key k => match q_method k with Some q => go q | None => None end
  | Q_methods true, X_close => go Q_sequence_end
  | Q_simple c, X_eol => filter (plain_arguments c) (Q_methods true)
  | Q_method c, X_eol => filter (plain_arguments c) (Q_methods true)
  | Q_method c, X_open => go (Q_options c)
  | Q_options c, X_close => filter (plain_arguments c) Q_method_end
  | Q_options c, X_key K_filename => if takes_table c then go (Q_table c false) else None
  | Q_options c, X_key K_builtin => if takes_table c then go (Q_table c true) else None
  | Q_options F_wipeup, X_key K_remove_trailing => go (Q_option (mkArguments F_wipeup None None 0 1))
  | Q_options F_max_length, X_key K_length => go Q_length
  | Q_table c b, X_string n => go (Q_option (if b then mkArguments c n None 0 0 else mkArguments c None n 0 0))
  | Q_length, X_number n => go (Q_option (mkArguments F_max_length None None n 0))
  | Q_option a, X_eol => go (Q_option_eol a)
  | Q_option_eol a, X_close => filter a Q_method_end
  | Q_method_end, X_eol => go (Q_methods true)
  | Q_sequence_end, X_eol => Some (let$ v := c_cf_append_sequence_list v in wret (Q_top, v))
  | Q_ignore, X_open => go (Q_ignores false)
  | Q_ignores _, X_key K_filename => go Q_ignore_file
  | Q_ignores true, X_close => go Q_ignore_end
  | Q_ignore_file, X_string n => go (Q_ignored n)
  | Q_ignored f, X_eol => Some (let$ v := c_cf_append_ignore_entry f v in wret (Q_ignores true, v))
  | Q_ignore_end, X_eol => go Q_top
  | _, _ => None
  end.

(** src/config_file_yacc.y:257-270 *)
Definition c_yyerror {A} (v : statics) (line : N) (text : str) : wmem A :=
  let$ source := deref (v_source v) in
  let$ filename := bytes (c_read source) in
  fun _ => yyerror_says filename line text.

(** yyparse *)
Fixpoint c_yyparse (fuel : nat) (q : position) (v : statics) (line : N) (input : str) : wmem (statics * N) :=
  match fuel, input with
  | S fuel', _ :: _ =>
    let$ (t, text, newlines, rest) := c_lex_round input in
    match t with
    | None => c_yyparse fuel' q v (line + newlines) rest
    | Some t =>
      match c_parse_step q v t with
      | Some m => let$ (q', v') := m in c_yyparse fuel' q' v' (line + newlines) rest
      | None => c_yyerror v (line + newlines) text
      end
    end
  | _, _ =>
    match q with
    | Q_top => wret (v, line)
    | _ => c_yyerror v line []
    end
  end.

(** src/config_file_yacc.y:214-218: the last sequence *)
Definition c_last_sequence (sequences : ptr) : wmem ptr :=
  wwhile (fun current =>
    let$ next := ptr_at current SQ_next in
    match next with
    | None => wret (inr current)
    | Some _ =>
      let$ next := ptr_at current SQ_next in
      let$ next := deref next in
      wret (inl next)
    end) sequences.

(** src/config_file_yacc.y:180-255 [parse_config_file].  [name] is what current_name is from
    the files before; the line counter goes on as well. *)
Definition c_parse_config_file (files : str -> file_at) (filename : ptr) (line : N) (name : option ptr) (previous : option ptr)
  : wmem (option ptr * N * option ptr) :=
  let$ path := bytes (c_read filename) in
  match files path with
  | NoFile => wret (previous, line, name)
  | file =>
    let$ ret := (match previous with Some c => wret c | None => c_config_file_init end) in
    let$ sequences := (match previous with Some c => ptr_at c CF_sequences | None => wret None end) in
    let$ last := (match sequences with Some q => let$ l := c_last_sequence q in wret (Some l) | None => wret None end) in
    let$ ignore :=
      (match previous with
       | Some c =>
         let$ l := ptr_at c CF_files_to_ignore in
         let$ n := c_filelist_count l in
         if (0 <? n)%Z then wret l else let$ l := c_filelist_init in wret (Some l)
       | None => let$ l := c_filelist_init in wret (Some l)
       end) in
    match file with
    | Contents bytes =>
      let$ (v, line) := c_yyparse (length bytes) Q_top (mkStatics sequences last None None name (Some filename) ignore) line bytes in
      let$ _ := assign ret CF_sequences (word_of (v_sequences v)) in
      let$ _ := assign ret CF_files_to_ignore (word_of (v_ignore v)) in
      wret (Some ret, line, v_name v)
    | _ =>
      let$ _ := saying (complain (bs "input in flex scanner failed")) in
      fun _ => quietly (Exit YY_EXIT_FAILURE)
    end
  end.

End config.
