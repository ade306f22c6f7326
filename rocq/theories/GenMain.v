(** * Model of src/generate_builtin_table.c, call by call

    What GenBuiltin.v describes as one text is printed in pieces here, so that it can be said
    what was printed before the program ended.  What main gets from the shell and from the
    file system is added. *)

From Verif Require Import Base Stdio Table ParseTable Options GenBuiltin CheckTable Prog Warnings Startup.

Local Open Scope nat_scope.

(** src/generate_builtin_table.c:71-77 *)
Definition header_text (file : str) : str :=
  line [] ++ line (bs "/**") ++ line (bs " * Generated from " ++ file) ++ line (bs " */") ++ line [].

(** lines 81-84 *)
Definition array_text (used : N) : str := line (bs "static table_row_t builtin_NEW_rows[" ++ dec used ++ bs "] = {").

(** lines 91-98 *)
Definition row_text (key : N) (escaped : str) : str :=
  line (bs "    { .key  = 0x" ++ hex4 key ++ bs ", .data = " ++ [c_quote] ++ escaped ++ [c_quote] ++ bs " },").

(** lines 101-103 and 138-140 *)
Definition end_text : str := line (bs "};") ++ line [].

(** lines 107-125 *)
Definition members_text (used maxdata maxkey overwrites : N) : str :=
  line (bs "static table_t builtin_NEW_table = {") ++
  line (bs "    .length              = " ++ dec used ++ bs ",") ++
  line (bs "    .used                = " ++ dec used ++ bs ",") ++
  line (bs "    .max_data_length     = " ++ dec maxdata ++ bs ",") ++
  line (bs "    .max_key             = 0x" ++ hex4 maxkey ++ bs ",") ++
  line (bs "    .hits                = 0,") ++
  line (bs "    .misses              = 0,") ++
  line (bs "    .seeks               = 0,") ++
  line (bs "    .overwrites          = " ++ dec overwrites ++ bs ",") ++
  line (bs "    .use_hash            = 0,") ++
  line (bs "    .builtin             = 1,") ++
  line (bs "    .rows                = builtin_NEW_rows,").

(** lines 127-136 *)
Definition default_text (default : option str) : str :=
  line (bs "    .default_translation = " ++ match default with None => bs "NULL" | Some d => [c_quote] ++ d ++ [c_quote] end ++ bs ",").

(** lines 144-150 *)
Definition loader_text (size : N) : str :=
  line (bs "table_t *load_builtin_NEW_table(void)") ++
  line (bs "{") ++
  line (bs "    return table_resize(&builtin_NEW_table, " ++ dec size ++ bs ", 1);") ++
  line (bs "}").

(** lines 86-99 *)
Fixpoint rows_say (rows : list row) : talk unit :=
  match rows with
  | [] => done tt
  | r :: rest =>
    let% _ :=
      (if (r_key r =? 0)%N then done tt
       else match r_data r with
       | None => quietly (UB NullDeref)
       | Some d => let% e := quietly (escape_string d) in say Stdout (row_text (r_key r) e)
       end) in
    rows_say rest
  end.

(** lines 71-150 *)
Definition table_says (file : str) (t : table) : talk unit :=
  let% _ := say Stdout (header_text file) in
  let% _ := say Stdout (array_text (N.of_nat (t_used t))) in
  let% _ := rows_say (t_rows t) in
  let% _ := say Stdout end_text in
  let% _ := say Stdout (members_text (N.of_nat (t_used t)) (N.of_nat (t_maxdata t)) (t_maxkey t) (N.of_nat (t_overwrites t))) in
  let% _ := say Stdout (default_text (t_default t)) in
  let% _ := say Stdout end_text in
  say Stdout (loader_text (loader_size (N.of_nat (t_used t)))).

(** parse_table of what is found at a path *)
Definition loaded_says (locale : str) (found : table_file) : talk (option table) :=
  match found with
  | Absent => done None
  | Locked message => let% _ := complain (bs "Unable to open translation table: " ++ message) in done None
  | Readable contents => parse_table_says locale contents
  end.

(** lines 61-151 [generate_loader]; [file] is what basename returns *)
Definition generate_says (locale file : str) (found : table_file) : talk unit :=
  let% hold := loaded_says locale found in
  match hold with
  | None => quietly (UB NullDeref)
  | Some hold =>
    if (2 ^ 31 <=? t_maxkey hold + 1)%N then quietly (UB IntOverflow)
    else table_says file (table_resize hold (Z.of_N (t_maxkey hold) + 1) true)
  end.

(** lines 153-163 [main]; [args] are the arguments behind the name of the program, which is
    there; the status -1 arrives as 255 *)
Definition generator_main (locale : str) (args : list str) (found : str -> table_file) : talk N :=
  match args with
  | [] => let% _ := say Stderr (line (bs "please specify a file to operate on")) in done 255%N
  | file :: _ => let% _ := generate_says locale (basename (Some file)) (found file) in done 0%N
  end.
