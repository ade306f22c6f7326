(** * Model of src/detox.c (main) and src/config_file_dump.c *)

From Verif Require Import Base Stdio Table ParseTable Filter Spoof Filelist Prog File Inline ConfigParse ConfigLoad Options Startup.

Local Open Scope nat_scope.

(** ** src/config_file_dump.c *)

(** src/sequence.c:28-54 [sequence_choose_default], as the position in the list: the
    pointer that is compared with in line 43. *)
Fixpoint position (wanted : str) (l : list sequence_t) : option nat :=
  match l with
  | [] => None
  | s :: r => if str_eqb (s_name s) wanted then Some 0 else option_map S (position wanted r)
  end.

Definition chosen_position (sequences : list sequence_t) (name : option str) : option nat :=
  match position (match name with Some n => n | None => bs "default" end) sequences with
  | Some i => Some i
  | None =>
    match name with
    | Some _ => None
    | None => match sequences with [] => None | _ => Some 0 end
    end
  end.

(** lines 48-77: a filter *)
Definition dump_filter (f : filter_t) : str :=
  (match f_cleaner f with
   | F_uncgi => [tab] ++ bs "cleaner: uncgi" ++ [eol]
   | F_safe => [tab] ++ bs "cleaner: safe" ++ [eol]
   | F_wipeup => [tab] ++ bs "cleaner: wipeup" ++ [eol] ++
                 [tab; tab] ++ bs "remove trailing: " ++ (if f_remove_trailing f then bs "yes" else bs "no") ++ [eol]
   | F_iso8859_1 => [tab] ++ bs "cleaner: iso8859_1" ++ [eol]
   | F_utf_8 => [tab] ++ bs "cleaner: utf_8" ++ [eol]
   | F_max_length => [tab] ++ bs "cleaner: max length" ++ [eol] ++
                     [tab; tab] ++ bs "length: " ++ printf_d (f_max_length f) ++ [eol]
   | F_lower => [tab] ++ bs "cleaner: lower" ++ [eol]
   | F_unknown _ => []
   end) ++
  match f_builtin f, f_filename f with
  | Some b, _ => [tab; tab] ++ bs "builtin table: " ++ b ++ [eol]
  | None, Some n => [tab; tab] ++ bs "translation table: " ++ n ++ [eol]
  | None, None => []
  end.

(** lines 31-81: the sequences; [count] is the number of those before *)
Fixpoint dump_sequences (verbose : bool) (chosen : option nat) (count : nat) (l : list sequence_t) : res str :=
  match l with
  | [] => Ok []
  | s :: rest =>
    let mark := match chosen with Some i => if i =? count then bs " (*)" else [] | None => [] end in
    let line := s_name s ++ mark ++ [eol] in
    do this <-
      (if verbose then
         match s_source s with
         | None => UB NullDeref
         | Some source =>
           Ok ((if 0 <? count then [eol] else []) ++ bs "sequence name: " ++ line ++
               [tab] ++ bs "source file: " ++ source ++ [eol] ++ flat_map dump_filter (s_filters s))
         end
       else Ok ([tab] ++ line));
    do others <- dump_sequences verbose chosen (S count) rest;
    Ok (this ++ others)
  end.

(** lines 16-89 [dump_config_file], as the text printed *)
Definition dump_config_file (c : config_t) (chosen : option nat) (verbose : bool) : res str :=
  do sequences <- dump_sequences verbose chosen 0 (cf_sequences c);
  Ok ((if verbose then [] else bs "available sequences:" ++ [eol]) ++ sequences ++
      match cf_ignore c with
      | None | Some [] => []
      | Some l => [eol] ++ bs "files to ignore:" ++ [eol] ++ flat_map (fun f => [tab] ++ f ++ [eol]) l
      end).

(** ** src/detox.c *)

(** parse_table as a function of the path (see [table_at_says] in Startup.v).  It never
    fails with undefined behaviour (C46). *)
Definition table_at (sys : system) (path : str) : option table :=
  let of_bytes bytes := match parse_table (m_locale sys) bytes with Ok t => t | _ => None end in
  match e_files (m_env sys) path with
  | NoFile => None
  | Unreadable => of_bytes []
  | Contents bytes => of_bytes bytes
  end.

(** The ignore list as the filelist it is. *)
Definition ignore_list (c : config_t) : res (option filelist) :=
  match cf_ignore c with
  | None => Ok None
  | Some l => do fl <- put_files filelist_init l; Ok (Some fl)
  end.

(** src/detox.c:91, 114: what the loop over filelist_get sees *)
Fixpoint all_files (fuel : nat) (l : option filelist) : res (list str) :=
  match fuel with
  | O => Ok []
  | S fuel' =>
    do g <- filelist_get l;
    match g with
    | (None, _) => Ok []
    | (Some f, l') => do rest <- all_files fuel' l'; Ok (f :: rest)
    end
  end.

(** src/detox.c:114-126 *)
Fixpoint inline_arguments (o : options_t) (files : list str) : prog unit :=
  match files with
  | [] => Ret tt
  | f :: rest =>
    let! st := sys (Lstat f) in
    let! _ :=
      (match st with
       | inr message => print Stderr (f ++ bs ": " ++ message ++ [eol])
       | inl st => if isdir st then print Stderr (f ++ bs ": is a directory" ++ [eol]) else parse_inline (Some f) o
       end) in
    inline_arguments o rest
  end.

Definition with_sequence (s : option sequence_t) (ign : option filelist) (o : options_t) : options_t :=
  mkOptions (o_platform o) (o_dry_run o) (o_is_inline_bin o) (o_is_inline_mode o) (o_list_sequences o) (o_recurse o)
    (o_special o) (o_verbose o) s ign (o_sequence_name o) (o_check_config_file o) (o_files o).

(** src/detox.c:25-133 [main]; the result is the exit status.  sequence_review changes the
    sequence in place. *)
Definition main (fuel : nat) (system : system) (argv : list str) : prog N :=
  let env := m_env system in
  let! o := talking (parse_options_says (m_platform system) (e_getenv env) (m_package system) argv) in
  let! c := talking (config_file_load_says env (o_check_config_file o)) in
  let! ign := lift (ignore_list c) in
  let chosen := sequence_choose_default (cf_sequences c) (o_sequence_name o) in
  if o_list_sequences o then
    let! text := lift (dump_config_file c (chosen_position (cf_sequences c) (o_sequence_name o)) (0 <? o_verbose o)%N) in
    let! _ := print Stdout text in
    Stop (StopExit EXIT_SUCCESS)
  else
    match chosen with
    | None =>
      let! _ := print Stderr (bs "detox: no sequence to work with" ++ [eol]) in
      Stop (StopExit EXIT_FAILURE)
    | Some s =>
      let! s := talking (sequence_review_says (e_datadir env) (table_at_says system) s) in
      let o := with_sequence (Some s) ign o in
      let! files := lift (all_files (S (filelist_count (o_files o))) (o_files o)) in
      if negb (o_is_inline_mode o) then
        let! _ := process_arguments fuel o files ign in Ret EXIT_SUCCESS
      else if 0 <? filelist_count (o_files o) then
        let! _ := inline_arguments o files in Ret EXIT_SUCCESS
      else
        let! _ := parse_inline None o in Ret EXIT_SUCCESS
    end.
