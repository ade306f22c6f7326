(** * The whole program in memory (src/detox.c) *)

From Verif Require Import Base Stdio Table ParseTable Filter Spoof Filelist Prog Warnings File Inline ConfigParse ConfigLoad Options Startup Main Generated Mem CFile.

(** A part of the program that is not modelled in memory: the options, the configuration
    and the tables. *)
Definition alike {A} (p : prog A) : cprog A := fun h => let! a := p in Ret (a, h).

Section main.

Context {al : allocator}.

(** src/parse_options.c:230-236, src/filelist.c:130: the names in the list of files are
    copies.  (In src they are made while the options are read.) *)
Fixpoint c_copies (files : list str) : cprog (list ptr) :=
  match files with
  | [] => cret []
  | f :: rest =>
    let@ p := inside (c_strdup_of f) in
    let@ ps := c_copies rest in
    cret (p :: ps)
  end.

(** src/detox.c:25-133 [main]; nothing is freed at the end.  The configuration is read by the
    generated scanner and parser. *)
Definition c_main (arr : arrival) (fuel : nat) (system : system) (argv : list str) : cprog N :=
  let env := m_env system in
  let@ o := alike (talking (parse_options_says (m_platform system) (e_getenv env) (m_package system) argv)) in
  let@ c := alike (talking (config_file_load_generated arr env (o_check_config_file o))) in
  let@ ign := alike (lift (ignore_list c)) in
  let chosen := sequence_choose_default (cf_sequences c) (o_sequence_name o) in
  if o_list_sequences o then
    let@ text := alike (lift (dump_config_file c (chosen_position (cf_sequences c) (o_sequence_name o)) (0 <? o_verbose o)%N)) in
    let@ _ := cprint Stdout text in
    cstop (StopExit EXIT_SUCCESS)
  else
    match chosen with
    | None =>
      let@ _ := cprint Stderr (bs "detox: no sequence to work with" ++ [eol]) in
      cstop (StopExit EXIT_FAILURE)
    | Some s =>
      let@ s := alike (talking (sequence_review_says (e_datadir env) (table_at_says system) s)) in
      let o := with_sequence (Some s) ign o in
      let@ names := alike (lift (all_files (S (filelist_count (o_files o))) (o_files o))) in
      let@ files := c_copies names in
      if negb (o_is_inline_mode o) then
        let@ _ := c_process_arguments fuel o files ign in cret EXIT_SUCCESS
      else if (0 <? filelist_count (o_files o))%nat then
        let@ _ := c_inline_arguments o files in cret EXIT_SUCCESS
      else
        let@ _ := c_parse_inline None o in cret EXIT_SUCCESS
    end.

End main.
