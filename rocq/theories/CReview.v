(** * Model of choosing a sequence and loading its tables in memory

    src/sequence.c:28-54, 75-88 and src/filter.c:30-184.  Compare Filter.v and Startup.v.
    [literal] has the addresses of the string literals, [static] those of the tables in
    src/builtin_table.c; [denied_size] is the size of files that cannot be opened. *)

From Verif Require Import Base Stdio Table BuiltinTables Filter ConfigParse ConfigLoad Prog Warnings Startup Mem Words CTable CParseTable CFilelist CConfig CLoad.

Local Open Scope nat_scope.

(** alloca: memory until the function returns *)
Definition c_alloca (n : N) : mem ptr := fun h => done (mkPtr (length h) 0, h ++ [Some (repeat None (N.to_nat n))]).

(** The tables in src/builtin_table.c *)
Inductive static_table := Static_safe | Static_iso8859_1 | Static_unicode | Static_cp1252.

Section review.

Context {al : allocator}.
Context (literal : str -> ptr) (static : static_table -> ptr) (denied_size : str -> nat) (sys : system).

(** src/sequence.c:28-54 *)
Definition c_sequence_choose_default (sequences name : option ptr) : wmem (option ptr) :=
  let$ which :=
    wwhile (fun work =>
      match work with
      | None => wret (inr None)
      | Some w =>
        let$ n := ptr_at w SQ_name in
        let$ n := deref n in
        let$ same := bytes (c_equal n (match name with None => literal (bs "default") | Some name => name end)) in
        if same : bool then wret (inr (Some w))
        else
          let$ next := ptr_at w SQ_next in
          wret (inl next)
      end) sequences in
  match which, name with
  | None, None => wret sequences
  | _, _ => wret which
  end.

(** src/parse_table.c:27-202 as a function of the path; a directory is of size 0 *)
Definition c_parse_table_file (filename : ptr) : wmem (option ptr) :=
  let$ path := bytes (c_read filename) in
  match e_files (m_env sys) path with
  | NoFile =>
    match m_denied sys path with
    | Some message => c_parse_denied (denied_size path) message
    | None => wret None
    end
  | Unreadable => c_parse_table (m_locale sys) []
  | Contents contents => c_parse_table (m_locale sys) contents
  end.

(** src/filter.c:43-49, 52-58, 60-63: [check_filename] behind a directory *)
Definition c_try_table (buf : ptr) (directory : str) (check_filename : ptr) : wmem (option ptr) :=
  let$ name := bytes (c_read check_filename) in
  let$ _ := bytes (c_snprintf buf MAX_PATH_LEN (directory ++ name)) in
  if (snprintf_result (directory ++ name) <? Z.of_N MAX_PATH_LEN)%Z then c_parse_table_file buf
  else wret None.

(** src/filter.c:30-66; the memory of alloca is gone when the function returns *)
Definition c_filter_find_table (check_filename : ptr) : wmem (option ptr) :=
  let$ buf := bytes (c_alloca MAX_PATH_LEN) in
  let$ table :=
    (match e_datadir (m_env sys) with
     | Some d => c_try_table buf (d ++ bs "/detox/") check_filename
     | None => wret None
     end) in
  let$ table :=
    (match table with
     | Some _ => wret table
     | None =>
       let$ table := c_try_table buf (bs "/usr/share/detox/") check_filename in
       match table with
       | Some _ => wret table
       | None => c_try_table buf (bs "/usr/local/share/detox/") check_filename
       end
     end) in
  let$ _ := bytes (free buf) in
  wret table.

(** src/builtin_table.c:91-94, 214-217, 404-407, 463-466 *)
Definition c_load_builtin (t : static_table) : wmem (option ptr) :=
  let$ table := c_table_resize (Some (static t)) 256 1 in
  wret (Some table).

(** src/filter.c:87-98 *)
Definition c_filter_load_builtin (filter : ptr) : wmem (option ptr) :=
  let$ cleaner := int_at filter FT_cleaner in
  if (cleaner =? cleaner_code F_iso8859_1)%Z then c_load_builtin Static_iso8859_1
  else if (cleaner =? cleaner_code F_utf_8)%Z then c_load_builtin Static_unicode
  else if (cleaner =? cleaner_code F_safe)%Z then c_load_builtin Static_safe
  else wret None.

(** src/filter.c:111-124 *)
Definition c_filter_load_builtin_by_filename (filename : ptr) : wmem (option ptr) :=
  let$ same := bytes (c_equal filename (literal (bs "iso8859_1"))) in
  if same : bool then c_load_builtin Static_iso8859_1
  else
    let$ same := bytes (c_equal filename (literal (bs "unicode"))) in
    if same : bool then c_load_builtin Static_unicode
    else
      let$ same := bytes (c_equal filename (literal (bs "safe"))) in
      if same : bool then c_load_builtin Static_safe
      else
        let$ same := bytes (c_equal filename (literal (bs "cp1252"))) in
        if same : bool then c_load_builtin Static_cp1252
        else wret None.

Definition c_give_up (text : str) : wmem (option ptr) :=
  let$ _ := saying (complain text) in
  fun _ => quietly (Exit EXIT_FAILURE).

(** src/filter.c:131-184 *)
Definition c_filter_load_table (filter : ptr) : wmem (option ptr) :=
  let$ cleaner := int_at filter FT_cleaner in
  match (if (cleaner =? cleaner_code F_iso8859_1)%Z then Some (literal (bs "iso8859_1.tbl"))
         else if (cleaner =? cleaner_code F_utf_8)%Z then Some (literal (bs "unicode.tbl"))
         else if (cleaner =? cleaner_code F_safe)%Z then Some (literal (bs "safe.tbl"))
         else None) with
  | None => wret None
  | Some check_filename =>
    let$ builtin := ptr_at filter FT_builtin in
    match builtin with
    | Some builtin =>
      let$ table := c_filter_load_builtin_by_filename builtin in
      match table with
      | Some _ => wret table
      | None =>
        let$ b := bytes (c_read builtin) in
        c_give_up (bs "detox: unable to locate builtin table " ++ in_quotes b)
      end
    | None =>
      let$ filename := ptr_at filter FT_filename in
      match filename with
      | None =>
        let$ table := c_filter_find_table check_filename in
        match table with
        | Some _ => wret table
        | None =>
          let$ table := c_filter_load_builtin filter in
          match table with
          | Some _ => wret table
          | None => c_give_up (bs "detox: unable to locate translation table or fall back")
          end
        end
      | Some check_filename =>
        let$ table := c_parse_table_file check_filename in
        match table with
        | Some _ => wret table
        | None =>
          let$ path := bytes (c_read check_filename) in
          c_give_up (bs "detox: unable to parse file: " ++ in_quotes path)
        end
      end
    end
  end.

(** src/sequence.c:75-88 *)
Definition c_sequence_review (sequence : ptr) : wmem unit :=
  let$ filter := ptr_at sequence SQ_filters in
  wwhile (fun filter =>
    match filter with
    | None => wret (inr tt)
    | Some f =>
      let$ table := c_filter_load_table f in
      let$ _ := (match table with Some t => assign f FT_table (Ptr t) | None => wret tt end) in
      let$ next := ptr_at f FT_next in
      wret (inl next)
    end) filter.

(** src/detox.c:43-82: from the options to the sequence, without -L *)
Definition c_prepare (check_config_file sequence_name : option ptr) : wmem (ptr * ptr) :=
  let$ config := c_config_file_load literal (m_env sys) check_config_file in
  let$ sequences := ptr_at config CF_sequences in
  let$ chosen := c_sequence_choose_default sequences sequence_name in
  match chosen with
  | None =>
    let$ _ := saying (complain (bs "detox: no sequence to work with")) in
    fun _ => quietly (Exit EXIT_FAILURE)
  | Some sequence =>
    let$ _ := c_sequence_review sequence in
    wret (config, sequence)
  end.

End review.
