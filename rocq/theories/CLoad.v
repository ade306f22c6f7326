(** * Model of loading the configuration in memory

    src/config_file.c:37-97 and src/config_file_spoof.c.  Compare Startup.v and Spoof.v.
    [literal] has the addresses of the string literals. *)

From Verif Require Import Base Stdio Filter Spoof ConfigLex ConfigParse ConfigLoad Prog Warnings Startup Mem Words CFilelist CConfig.

Local Open Scope nat_scope.

Section load.

Context {al : allocator}.
Context (literal : str -> ptr).

(** ** The built-in configuration *)

(** src/config_file_spoof.c:26-32 *)
Definition c_generate_builtin_filter (c : cleaner) (builtin : str) : wmem ptr :=
  let$ filter := c_filter_init (cleaner_code c) in
  let$ copy := bytes (c_strdup (literal builtin)) in
  let$ _ := assign filter FT_builtin (Ptr copy) in
  wret filter.

(** src/config_file_spoof.c:39-47 *)
Definition c_generate_filter (c : cleaner) : wmem ptr :=
  let$ filter := c_filter_init (cleaner_code c) in
  if (cleaner_code c =? cleaner_code F_safe)%Z then
    let$ copy := bytes (c_strdup (literal (bs "safe"))) in
    let$ _ := assign filter FT_builtin (Ptr copy) in
    wret filter
  else wret filter.

(** src/config_file_spoof.c:56-62 *)
Definition c_generate_sequence (name : str) : wmem ptr :=
  let$ sequence := c_sequence_init (literal name) in
  let$ copy := bytes (c_strdup (literal (bs "built-in config file"))) in
  let$ _ := assign sequence SQ_source_filename (Ptr copy) in
  wret sequence.

(** src/config_file_spoof.c:71-77 *)
Definition c_generate_wipeup_filter (remove_trailing : Z) : wmem ptr :=
  let$ filter := c_filter_init (cleaner_code F_wipeup) in
  let$ _ := assign filter FT_remove_trailing (Int remove_trailing) in
  wret filter.

(** src/config_file_spoof.c:84-154 *)
Definition c_spoof_config_file : wmem ptr :=
  let$ safe_wipeup_filter := c_generate_filter F_safe in
  let$ filter := c_generate_wipeup_filter 1 in
  let$ _ := assign safe_wipeup_filter FT_next (Ptr filter) in
  let$ ret := c_config_file_init in
  (* default *)
  let$ sequence := c_generate_sequence (bs "default") in
  let$ _ := assign ret CF_sequences (Ptr sequence) in
  let$ _ := assign sequence SQ_filters (Ptr safe_wipeup_filter) in
  (* iso8859_1 *)
  let$ next := c_generate_sequence (bs "iso8859_1") in
  let$ _ := assign sequence SQ_next (Ptr next) in
  let sequence := next in
  let$ filter := c_generate_builtin_filter F_iso8859_1 (bs "iso8859_1") in
  let$ _ := assign sequence SQ_filters (Ptr filter) in
  let$ _ := assign filter FT_next (Ptr safe_wipeup_filter) in
  (* iso8859_1-legacy *)
  let$ next := c_generate_sequence (bs "iso8859_1-legacy") in
  let$ _ := assign sequence SQ_next (Ptr next) in
  let sequence := next in
  let$ filter := c_generate_builtin_filter F_iso8859_1 (bs "cp1252") in
  let$ _ := assign sequence SQ_filters (Ptr filter) in
  let$ second := c_generate_builtin_filter F_iso8859_1 (bs "iso8859_1") in
  let$ _ := assign filter FT_next (Ptr second) in
  let filter := second in
  let$ _ := assign filter FT_next (Ptr safe_wipeup_filter) in
  (* utf_8 *)
  let$ next := c_generate_sequence (bs "utf_8") in
  let$ _ := assign sequence SQ_next (Ptr next) in
  let sequence := next in
  let$ filter := c_generate_builtin_filter F_utf_8 (bs "unicode") in
  let$ _ := assign sequence SQ_filters (Ptr filter) in
  let$ _ := assign filter FT_next (Ptr safe_wipeup_filter) in
  (* uncgi *)
  let$ next := c_generate_sequence (bs "uncgi") in
  let$ _ := assign sequence SQ_next (Ptr next) in
  let sequence := next in
  let$ filter := c_generate_filter F_uncgi in
  let$ _ := assign sequence SQ_filters (Ptr filter) in
  let$ _ := assign filter FT_next (Ptr safe_wipeup_filter) in
  (* lower *)
  let$ next := c_generate_sequence (bs "lower") in
  let$ _ := assign sequence SQ_next (Ptr next) in
  let sequence := next in
  let$ filter := c_generate_filter F_safe in
  let$ _ := assign sequence SQ_filters (Ptr filter) in
  let$ second := c_generate_filter F_lower in
  let$ _ := assign filter FT_next (Ptr second) in
  let filter := second in
  let$ third := c_generate_wipeup_filter 1 in
  let$ _ := assign filter FT_next (Ptr third) in
  (* iso8859_1-only *)
  let$ next := c_generate_sequence (bs "iso8859_1-only") in
  let$ _ := assign sequence SQ_next (Ptr next) in
  let sequence := next in
  let$ filter := c_generate_builtin_filter F_iso8859_1 (bs "iso8859_1") in
  let$ _ := assign sequence SQ_filters (Ptr filter) in
  (* cp1252-only *)
  let$ next := c_generate_sequence (bs "cp1252-only") in
  let$ _ := assign sequence SQ_next (Ptr next) in
  let sequence := next in
  let$ filter := c_generate_builtin_filter F_iso8859_1 (bs "cp1252") in
  let$ _ := assign sequence SQ_filters (Ptr filter) in
  (* utf_8-only *)
  let$ next := c_generate_sequence (bs "utf_8-only") in
  let$ _ := assign sequence SQ_next (Ptr next) in
  let sequence := next in
  let$ filter := c_generate_builtin_filter F_utf_8 (bs "unicode") in
  let$ _ := assign sequence SQ_filters (Ptr filter) in
  (* uncgi-only *)
  let$ next := c_generate_sequence (bs "uncgi-only") in
  let$ _ := assign sequence SQ_next (Ptr next) in
  let sequence := next in
  let$ filter := c_generate_filter F_uncgi in
  let$ _ := assign sequence SQ_filters (Ptr filter) in
  (* lower-only *)
  let$ next := c_generate_sequence (bs "lower-only") in
  let$ _ := assign sequence SQ_next (Ptr next) in
  let sequence := next in
  let$ filter := c_generate_filter F_lower in
  let$ _ := assign sequence SQ_filters (Ptr filter) in
  (* files to ignore *)
  let$ files := c_filelist_init in
  let$ _ := assign ret CF_files_to_ignore (Ptr files) in
  let$ files := ptr_at ret CF_files_to_ignore in
  let$ _ := c_filelist_put files (literal (bs "{arch}")) in
  wret ret.

(** ** The files *)

(** What snprintf returns; it fails if that is not an int. *)
Definition snprintf_result (text : str) : Z := if (Z.of_N (strlen text) <=? int_max)%Z then Z.of_N (strlen text) else -1.

(** snprintf to [buf], then parse_config_file if the path has fit: lines 60-63, 77-80, 85-88 *)
Definition c_parse_if_short (files : str -> file_at) (buf : ptr) (text : str) (line : N) (name previous : option ptr) : wmem (option ptr * N * option ptr) :=
  let$ _ := bytes (c_snprintf buf MAX_PATH_LEN text) in
  if (snprintf_result text <? Z.of_N MAX_PATH_LEN)%Z then c_parse_config_file files buf line name previous
  else wret (previous, line, name).

(** Lines 66-72 *)
Definition c_or_else (files : str -> file_at) (path : str) (line : N) (name config : option ptr) : wmem (option ptr * N * option ptr) :=
  match config with
  | None => c_parse_config_file files (literal path) line name None
  | Some _ => wret (config, line, name)
  end.

(** src/config_file.c:37-97 *)
Definition c_config_file_load (env : environment) (check_config_file : option ptr) : wmem ptr :=
  let files := e_files env in
  match check_config_file with
  | Some check =>
    let$ check := bytes (c_strdup check) in
    let$ (config, _, _) := c_parse_config_file files check 1 None None in
    match config with
    | Some c => wret c
    | None =>
      let$ path := bytes (c_read check) in
      let$ _ := saying (complain (bs "detox: unable to open: " ++ path)) in
      fun _ => quietly (Exit EXIT_FAILURE)
    end
  | None =>
    let$ check := bytes (malloc MAX_PATH_LEN) in
    let$ (config, line, name) :=
      (match e_sysconfdir env with
       | Some d => c_parse_if_short files check (d ++ bs "/detoxrc") 1 None None
       | None => wret (None, 1%N, None)
       end) in
    let$ (config, line, name) := c_or_else files (bs "/etc/detoxrc") line name config in
    let$ (config, line, name) := c_or_else files (bs "/usr/local/etc/detoxrc") line name config in
    let$ (config, line, name) :=
      (match e_getenv env (bs "HOME") with
       | Some h => c_parse_if_short files check (h ++ bs "/.detoxrc") line name config
       | None => wret (config, line, name)
       end) in
    let$ (config, line, name) :=
      (match e_getenv env (bs "XDG_CONFIG_HOME") with
       | Some h => c_parse_if_short files check (h ++ bs "/detox/detoxrc") line name config
       | None => wret (config, line, name)
       end) in
    let$ config := (match config with Some c => wret c | None => c_spoof_config_file end) in
    let$ _ := bytes (free check) in
    wret config
  end.

End load.
