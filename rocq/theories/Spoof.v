(** * Model of src/config_file_spoof.c: the built-in configuration *)

From Verif Require Import Base Filter.

(** src/detox_struct.h:82-85 [config_file_t].  The ignore list is its items in order;
    None when the pointer is NULL. *)
Record config_t := mkConfig {
  cf_sequences : list sequence_t;
  cf_ignore : option (list str)
}.

(** src/config_file_spoof.c:26-32 *)
Definition generate_builtin_filter (c : cleaner) (builtin : str) : filter_t :=
  mkFilter c None (Some builtin) false 0 None.

(** src/config_file_spoof.c:39-47 *)
Definition generate_filter (c : cleaner) : filter_t :=
  match c with
  | F_safe => mkFilter c None (Some (bs "safe")) false 0 None
  | _ => filter_init c
  end.

(** src/config_file_spoof.c:56-62, 98-...: a sequence with its filter chain *)
Definition generate_sequence (name : str) (filters : list filter_t) : sequence_t :=
  mkSequence name filters (Some (bs "built-in config file")).

(** src/config_file_spoof.c:71-77 *)
Definition generate_wipeup_filter (remove_trailing : bool) : filter_t :=
  mkFilter F_wipeup None None remove_trailing 0 None.

(** src/config_file_spoof.c:84-154 [spoof_config_file].  The C code lets several
    chains share the same tail nodes; here the tail is repeated (nodes are only
    modified by attaching tables, to equal values). *)
Definition spoof_config_file : config_t :=
  let safe_wipeup := [generate_filter F_safe; generate_wipeup_filter true] in
  mkConfig
    [ generate_sequence (bs "default") safe_wipeup;
      generate_sequence (bs "iso8859_1")
        (generate_builtin_filter F_iso8859_1 (bs "iso8859_1") :: safe_wipeup);
      generate_sequence (bs "iso8859_1-legacy")
        (generate_builtin_filter F_iso8859_1 (bs "cp1252")
         :: generate_builtin_filter F_iso8859_1 (bs "iso8859_1") :: safe_wipeup);
      generate_sequence (bs "utf_8")
        (generate_builtin_filter F_utf_8 (bs "unicode") :: safe_wipeup);
      generate_sequence (bs "uncgi") (generate_filter F_uncgi :: safe_wipeup);
      generate_sequence (bs "lower")
        [generate_filter F_safe; generate_filter F_lower; generate_wipeup_filter true];
      generate_sequence (bs "iso8859_1-only")
        [generate_builtin_filter F_iso8859_1 (bs "iso8859_1")];
      generate_sequence (bs "cp1252-only") [generate_builtin_filter F_iso8859_1 (bs "cp1252")];
      generate_sequence (bs "utf_8-only") [generate_builtin_filter F_utf_8 (bs "unicode")];
      generate_sequence (bs "uncgi-only") [generate_filter F_uncgi];
      generate_sequence (bs "lower-only") [generate_filter F_lower] ]
    (Some [bs "{arch}"]).
