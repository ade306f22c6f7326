(** * Model of src/detox.c with everything in memory

    Compare Main.v.  The command line, the options, the configuration, the sequence with its
    tables, the lists of files and the names are in one memory; each function gets addresses. *)

From Verif Require Import Base Stdio Options Filter ConfigLoad Prog Warnings File Startup Main Mem Words CTable CFilelist CConfig CLoad CReview CRun COptions CDump CWork.

Local Open Scope nat_scope.

Section main.

Context {al : allocator}.
Context (literal : str -> ptr) (static : static_table -> ptr) (denied_size : str -> nat).

(** The flags in [main_options].  The program reads them where they are used; here they are
    read once, before the work.  Nothing is assigned to them in between. *)
Definition c_flags (pf : platform) (main_options : ptr) : wmem options_t :=
  let$ dry_run := int_at main_options OP_dry_run in
  let$ is_inline_bin := int_at main_options OP_is_inline_bin in
  let$ is_inline_mode := int_at main_options OP_is_inline_mode in
  let$ list_sequences := int_at main_options OP_list_sequences in
  let$ recurse := int_at main_options OP_recurse in
  let$ special := int_at main_options OP_special in
  let$ verbose := int_at main_options OP_verbose in
  let set x := negb (x =? 0)%Z in
  wret (mkOptions pf (set dry_run) (set is_inline_bin) (set is_inline_mode) (set list_sequences) (set recurse) (set special) (Z.to_N verbose) None None None None None).

(** src/detox.c:84-130: the work with the members of [main_options] *)
Definition w_do_work (fuel : nat) (pf : platform) (main_options : ptr) : sprog N :=
  let# (flags, sequence_to_use, files_to_ignore, files) := inner (
    let$ flags := c_flags pf main_options in
    let$ sequence_to_use := ptr_at main_options OP_sequence_to_use in
    let$ files_to_ignore := ptr_at main_options OP_files_to_ignore in
    let$ files := ptr_at main_options OP_files in
    wret (flags, sequence_to_use, files_to_ignore, files)) in
  w_work literal sequence_to_use files_to_ignore files fuel flags.

(** src/detox.c:25-133 [main].  [argv] has the addresses of the arguments, [detox_sequence] is
    what getenv returns for DETOX_SEQUENCE.  Lines 38-41 and 45-48 are left out: neither
    parse_options_getopt nor config_file_load returns NULL. *)
Definition w_main (fuel : nat) (sys : system) (argv : list ptr) (detox_sequence : option ptr) : sprog N :=
  let env := m_env sys in
  let posixly_correct := match e_getenv env (bs "POSIXLY_CORRECT") with Some _ => true | None => false end in
  let# main_options := inner (c_parse_options_getopt (m_package sys) posixly_correct detox_sequence argv) in
  let# config_file := inner (
    let$ check_config_file := ptr_at main_options OP_check_config_file in
    c_config_file_load literal env check_config_file) in
  let# _ := inner (c_choose literal config_file main_options) in
  let# list_sequences := inner (int_at main_options OP_list_sequences) in
  if negb (list_sequences =? 0)%Z then
    let# text := inner (c_dump_config_file config_file main_options) in
    let# _ := sprint Stdout text in
    sstop (StopExit EXIT_SUCCESS)
  else
    let# sequence_to_use := inner (ptr_at main_options OP_sequence_to_use) in
    match sequence_to_use with
    | None =>
      let# _ := sprint Stderr (bs "detox: no sequence to work with" ++ [eol]) in
      sstop (StopExit EXIT_FAILURE)
    | Some sequence_to_use =>
      let# _ := inner (c_sequence_review literal static denied_size sys sequence_to_use) in
      w_do_work fuel (m_platform sys) main_options
    end.

End main.
