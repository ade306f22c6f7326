(** * Model of src/config_file_dump.c and of src/detox.c:56-71 in memory

    Compare Main.v.  As there, the text is printed in one piece. *)

From Verif Require Import Base Stdio Filter Prog Warnings Options Startup Mem Words CFilelist CConfig CReview COptions.

Local Open Scope nat_scope.

Section dump.

Context {al : allocator}.

(** lines 50-73 *)
Definition c_dump_filter (filter : ptr) : wmem str :=
  let$ cleaner := int_at filter FT_cleaner in
  let$ kind :=
    (if (cleaner =? cleaner_code F_uncgi)%Z then wret ([tab] ++ bs "cleaner: uncgi" ++ [eol])
     else if (cleaner =? cleaner_code F_safe)%Z then wret ([tab] ++ bs "cleaner: safe" ++ [eol])
     else if (cleaner =? cleaner_code F_wipeup)%Z then
       let$ remove_trailing := int_at filter FT_remove_trailing in
       wret ([tab] ++ bs "cleaner: wipeup" ++ [eol] ++
             [tab; tab] ++ bs "remove trailing: " ++ (if (remove_trailing =? 0)%Z then bs "no" else bs "yes") ++ [eol])
     else if (cleaner =? cleaner_code F_iso8859_1)%Z then wret ([tab] ++ bs "cleaner: iso8859_1" ++ [eol])
     else if (cleaner =? cleaner_code F_utf_8)%Z then wret ([tab] ++ bs "cleaner: utf_8" ++ [eol])
     else if (cleaner =? cleaner_code F_max_length)%Z then
       let$ max_length := int_at filter FT_max_length in
       wret ([tab] ++ bs "cleaner: max length" ++ [eol] ++ [tab; tab] ++ bs "length: " ++ printf_d (Z.to_N max_length) ++ [eol])
     else if (cleaner =? cleaner_code F_lower)%Z then wret ([tab] ++ bs "cleaner: lower" ++ [eol])
     else wret []) in
  let$ builtin := ptr_at filter FT_builtin in
  match builtin with
  | Some builtin =>
    let$ name := bytes (c_read builtin) in
    wret (kind ++ [tab; tab] ++ bs "builtin table: " ++ name ++ [eol])
  | None =>
    let$ filename := ptr_at filter FT_filename in
    match filename with
    | Some filename =>
      let$ name := bytes (c_read filename) in
      wret (kind ++ [tab; tab] ++ bs "translation table: " ++ name ++ [eol])
    | None => wret kind
    end
  end.

(** lines 48-77 *)
Definition c_dump_filters (filters : option ptr) : wmem str :=
  wwhile (fun v =>
    let (filter, text) := v : option ptr * str in
    match filter with
    | None => wret (inr text)
    | Some filter =>
      let$ this := c_dump_filter filter in
      let$ next := ptr_at filter FT_next in
      wret (inl (next, text ++ this))
    end) (filters, []).

(** line 44 *)
Definition same_ptr (p q : option ptr) : bool :=
  match p, q with
  | None, None => true
  | Some p, Some q => (p_block p =? p_block q) && (p_off p =? p_off q)
  | _, _ => false
  end.

(** lines 29-80 *)
Definition c_dump_sequences (config_file main_options : ptr) : wmem str :=
  let$ sequences := ptr_at config_file CF_sequences in
  wwhile (fun v =>
    let '(sequence, count, text) := v : option ptr * Z * str in
    match sequence with
    | None => wret (inr text)
    | Some sequence =>
      let$ verbose := int_at main_options OP_verbose in
      let$ (count', before) :=
        (if negb (verbose =? 0)%Z then
           let$ count' := int_sum count 1 in
           wret (count', (if (0 <? count)%Z then [eol] else []) ++ bs "sequence name: ")
         else wret (count, [tab])) in
      let$ name := ptr_at sequence SQ_name in
      let$ name := deref name in
      let$ name := bytes (c_read name) in
      let$ sequence_to_use := ptr_at main_options OP_sequence_to_use in
      let line := name ++ (if same_ptr sequence_to_use (Some sequence) then bs " (*)" else []) ++ [eol] in
      let$ after :=
        (if negb (verbose =? 0)%Z then
           let$ source := ptr_at sequence SQ_source_filename in
           let$ source := deref source in
           let$ source := bytes (c_read source) in
           let$ filters := ptr_at sequence SQ_filters in
           let$ filters := c_dump_filters filters in
           wret ([tab] ++ bs "source file: " ++ source ++ [eol] ++ filters)
         else wret []) in
      let$ next := ptr_at sequence SQ_next in
      wret (inl (next, count', text ++ before ++ line ++ after))
    end) (sequences, 0%Z, []).

(** lines 82-88 *)
Definition c_dump_ignored (config_file : ptr) : wmem str :=
  let$ files_to_ignore := ptr_at config_file CF_files_to_ignore in
  let$ count := c_filelist_count files_to_ignore in
  if (0 <? count)%Z then
    wwhile (fun text =>
      let$ file_walk := c_filelist_get files_to_ignore in
      match file_walk with
      | None => wret (inr text)
      | Some file_walk =>
        let$ name := bytes (c_read file_walk) in
        wret (inl (text ++ [tab] ++ name ++ [eol]))
      end) ([eol] ++ bs "files to ignore:" ++ [eol])
  else wret [].

(** lines 16-89 [dump_config_file] *)
Definition c_dump_config_file (config_file main_options : ptr) : wmem str :=
  let$ verbose := int_at main_options OP_verbose in
  let$ sequences := c_dump_sequences config_file main_options in
  let$ ignored := c_dump_ignored config_file in
  wret ((if (verbose =? 0)%Z then bs "available sequences:" ++ [eol] else []) ++ sequences ++ ignored).

(** src/detox.c:56-62: files_to_ignore and sequence_to_use are set; the result is the latter *)
Definition c_choose (literal : str -> ptr) (config_file main_options : ptr) : wmem (option ptr) :=
  let$ files_to_ignore := ptr_at config_file CF_files_to_ignore in
  let$ _ := assign main_options OP_files_to_ignore (word_of files_to_ignore) in
  let$ sequences := ptr_at config_file CF_sequences in
  let$ sequence_name := ptr_at main_options OP_sequence_name in
  let$ sequence_to_use := c_sequence_choose_default literal sequences sequence_name in
  let$ _ := assign main_options OP_sequence_to_use (word_of sequence_to_use) in
  wret sequence_to_use.

(** src/detox.c:56-70 with list_sequences *)
Definition c_list_sequences (literal : str -> ptr) (config_file main_options : ptr) : wmem str :=
  let$ _ := c_choose literal config_file main_options in
  c_dump_config_file config_file main_options.

End dump.
