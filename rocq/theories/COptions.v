(** * Model of src/parse_options.c in memory

    Compare Options.v and Startup.v.  getopt_long and basename belong to the C library: what
    they return is computed from the strings at the addresses in argv, and the NUL that
    basename may write over the trailing slashes of argv[0] is not written. *)

From Verif Require Import Base Stdio Filelist Prog Warnings File Options Startup Mem Words CFilelist.

Local Open Scope nat_scope.

(** src/detox_struct.h:90-107 [options_t]: the members, and the size with 64 bit pointers *)
Definition OP_dry_run := 0.
Definition OP_is_inline_bin := 1.
Definition OP_is_inline_mode := 2.
Definition OP_list_sequences := 3.
Definition OP_recurse := 4.
Definition OP_special := 5.
Definition OP_verbose := 6.
Definition OP_sequence_to_use := 7.
Definition OP_files_to_ignore := 8.
Definition OP_sequence_name := 9.
Definition OP_check_config_file := 10.
Definition OP_files := 11.
Definition OP_members := 12.
Definition sizeof_options_t : N := 72.

(** The codes getopt_long returns, with optarg as an address. *)
Inductive c_code := CShort (c : byte) (optarg : option ptr) | CLong (n : N).

Definition CBAD : c_code := CShort "?"%byte None.
Definition no_optarg (c : code) : c_code := match c with Short c _ => CShort c None | Long n => CLong n end.

(** [cluster_says] and [getopt_long_says] of Startup.v with addresses: [p] is that of [s]. *)
Fixpoint c_cluster (prog : str) (p : ptr) (s : str) : list (c_code * option str) * option byte :=
  match s with
  | [] => ([], None)
  | c :: r =>
    match takes_argument letters c with
    | None => let (l, missing) := c_cluster prog (plus p 1) r in ((CBAD, Some (invalid_option prog c)) :: l, missing)
    | Some false => let (l, missing) := c_cluster prog (plus p 1) r in ((CShort c None, None) :: l, missing)
    | Some true => match r with [] => ([], Some c) | _ => ([(CShort c (Some (plus p 1)), None)], None) end
    end
  end.

Definition c_long_code (prog arg : str) : c_code * option str :=
  let (c, message) := long_code_says prog longopts arg in (no_optarg c, message).

Fixpoint c_getopt_long (prog : str) (posixly_correct : bool) (args skipped : list (ptr * str)) : list (c_code * option str) * list (ptr * str) :=
  match args with
  | [] => ([], skipped)
  | a :: rest =>
    match snd a with
    | c :: (d :: r) as a' =>
      if negb (beq c "-") then
        if posixly_correct then ([], args) else c_getopt_long prog posixly_correct rest (skipped ++ [a])
      else if beq d "-" then
        match r with
        | [] => ([], skipped ++ rest)
        | _ =>
          let (l, files) := c_getopt_long prog posixly_correct rest skipped in
          (c_long_code prog r :: l, files)
        end
      else
        match c_cluster prog (plus (fst a) 1) a' with
        | (codes, None) =>
          let (l, files) := c_getopt_long prog posixly_correct rest skipped in
          (codes ++ l, files)
        | (codes, Some missing) =>
          match rest with
          | [] => (codes ++ [(CBAD, Some (argument_missing prog missing))], skipped)
          | v :: rest' =>
            let (l, files) := c_getopt_long prog posixly_correct rest' skipped in
            (codes ++ (CShort missing (Some (fst v)), None) :: l, files)
          end
        end
    | _ => if posixly_correct then ([], args) else c_getopt_long prog posixly_correct rest (skipped ++ [a])
    end
  end.

Definition w_exit_with {A} (code : N) : wmem A := fun _ => quietly (Exit code).

Section options.

Context {al : allocator}.

(** The strings at these addresses *)
Fixpoint c_read_all (args : list ptr) : wmem (list (ptr * str)) :=
  match args with
  | [] => wret []
  | p :: rest =>
    let$ s := bytes (c_read p) in
    let$ l := c_read_all rest in
    wret ((p, s) :: l)
  end.

(** lines 115-124 [options_init] *)
Definition c_options_init : wmem ptr :=
  let$ ret := new_words sizeof_options_t OP_members in
  let$ _ := clear ret OP_members in
  wret ret.

Definition c_usage (main_options : ptr) : wmem str :=
  let$ bin := int_at main_options OP_is_inline_bin in
  wret (if (bin =? 0)%Z then usage_message else usage_message_inline).

Definition c_help (main_options : ptr) : wmem str :=
  let$ bin := int_at main_options OP_is_inline_bin in
  wret (if (bin =? 0)%Z then help_message else help_message_inline).

(** lines 144-222: the switch; what is printed on stdout is printed at once *)
Definition c_option_code (package_string : str) (main_options : ptr) (c : c_code) : wmem unit :=
  match c with
  | CLong n =>
    if (n =? LONG_OPTION_INLINE)%N then assign main_options OP_is_inline_mode (Int 1)
    else if (n =? LONG_OPTION_RECURSIVE)%N then assign main_options OP_recurse (Int 1)
    else if (n =? LONG_OPTION_SPECIAL)%N then assign main_options OP_special (Int 1)
    else wfail NullDeref
  | CShort c optarg =>
    if beq c "h" then
      let$ usage := c_usage main_options in
      let$ help := c_help main_options in
      let$ _ := saying (print_out (usage ++ [eol] ++ help)) in
      w_exit_with EXIT_SUCCESS
    else if beq c "f" then
      let$ optarg := deref optarg in
      let$ copy := bytes (c_strdup optarg) in
      assign main_options OP_check_config_file (Ptr copy)
    else if beq c "L" then assign main_options OP_list_sequences (Int 1)
    else if beq c "n" then assign main_options OP_dry_run (Int 1)
    else if beq c "r" then assign main_options OP_recurse (Int 1)
    else if beq c "s" then
      let$ optarg := deref optarg in
      let$ copy := bytes (c_strdup optarg) in
      assign main_options OP_sequence_name (Ptr copy)
    else if beq c "v" then incr main_options OP_verbose
    else if beq c "V" then
      let$ _ := saying (print_out (package_string ++ [eol])) in
      w_exit_with EXIT_SUCCESS
    else if beq c "?" then
      let$ usage := c_usage main_options in
      let$ _ := saying (print_out usage) in
      w_exit_with EXIT_SUCCESS
    else
      let$ _ := saying (complain (bs "unknown option: " ++ [c])) in
      w_exit_with EXIT_FAILURE
  end.

(** lines 139-223: the loop *)
Fixpoint c_option_codes (package_string : str) (main_options : ptr) (cs : list (c_code * option str)) : wmem unit :=
  match cs with
  | [] => wret tt
  | (c, message) :: rest =>
    let$ _ := (match message with Some m => saying (complain m) | None => wret tt end) in
    let$ _ := c_option_code package_string main_options c in
    c_option_codes package_string main_options rest
  end.

(** lines 234-237 *)
Fixpoint c_put_files (main_options : ptr) (files : list ptr) : wmem unit :=
  match files with
  | [] => wret tt
  | f :: rest =>
    let$ list := ptr_at main_options OP_files in
    let$ _ := c_filelist_put list f in
    c_put_files main_options rest
  end.

(** lines 126-245 [parse_options_getopt].  [detox_sequence] is what getenv returns. *)
Definition c_parse_options_getopt (package_string : str) (posixly_correct : bool) (detox_sequence : option ptr) (argv : list ptr) : wmem ptr :=
  let$ main_options := c_options_init in
  let$ _ := assign main_options OP_sequence_name (word_of detox_sequence) in
  let$ args := c_read_all argv in
  let inline := if str_eqb (basename (hd_error (map snd args))) (bs "inline-detox") then 1%Z else 0%Z in
  let$ _ := assign main_options OP_is_inline_mode (Int inline) in
  let$ _ := assign main_options OP_is_inline_bin (Int inline) in
  let (codes, files) := c_getopt_long (program_name (map snd args)) posixly_correct (tl args) [] in
  let$ _ := c_option_codes package_string main_options codes in
  let$ list_sequences := int_at main_options OP_list_sequences in
  if negb (list_sequences =? 0)%Z then wret main_options
  else
    let$ list := c_filelist_init in
    let$ _ := assign main_options OP_files (Ptr list) in
    match files with
    | [] =>
      let$ inline := int_at main_options OP_is_inline_mode in
      if (inline =? 0)%Z then
        let$ usage := c_usage main_options in
        let$ _ := saying (print_out usage) in
        w_exit_with EXIT_FAILURE
      else wret main_options
    | _ =>
      let$ _ := c_put_files main_options (map fst files) in
      wret main_options
    end.

End options.
