(** * Model of src/file.c (files and directories) and of the work loop of src/detox.c *)

From Verif Require Import Base CleanString Filter Filelist Prog Warnings.

(** src/detox_struct.h:90-107 [options_t].  [o_platform] is not in the C structure:
    it is the platform the program runs on. *)
Record options_t := mkOptions {
  o_platform : platform;
  o_dry_run : bool;
  o_is_inline_bin : bool;
  o_is_inline_mode : bool;
  o_list_sequences : bool;
  o_recurse : bool;
  o_special : bool;
  o_verbose : N;
  o_sequence_to_use : option sequence_t;
  o_files_to_ignore : option filelist;
  o_sequence_name : option str;
  o_check_config_file : option str;
  o_files : option filelist
}.

(** src/file.c:33-48 [ignore_file].  The list's cursor is changed: the result includes
    the list.  A get after the last item returns NULL, so the loop runs at most
    count + 1 times; the model's [fuel] is that number. *)
Fixpoint ignore_loop (fuel : nat) (filename : str) (l : option filelist) : res (bool * option filelist) :=
  match fuel with
  | O => Ok (false, l)
  | S fuel' =>
    do g <- filelist_get l;
    match g with
    | (None, l') => Ok (false, l')
    | (Some f, l') => if str_eqb filename f then Ok (true, l') else ignore_loop fuel' filename l'
    end
  end.

Definition ignore_file (filename : str) (l : option filelist) : res (bool * option filelist) :=
  match filename with
  | c :: _ => if beq c "." then Ok (true, l) else ignore_loop (S (filelist_count l)) filename l
  | [] => ignore_loop (S (filelist_count l)) filename l
  end.

(** src/file.c:57-64 [is_protected] for a non-NULL name *)
Definition is_protected (filename : str) : bool :=
  str_eqb filename (bs ".") || str_eqb filename (bs "..").

(** src/file.c:84-89: a path up to and including its last '/', and the rest *)
Fixpoint split_path (s : str) : str * str :=
  match s with
  | [] => ([], [])
  | c :: r =>
    match split_path r with
    | ([], _) => if beq c "/" then ([c], r) else ([], s)
    | (d, b) => (c :: d, b)
    end
  end.

(** src/file.c:132-134 *)
Definition is_other_file (old new : stat) : bool :=
  negb (st_dev old =? st_dev new)%N || negb (st_ino old =? st_ino new)%N || (1 <? st_nlink old)%N.

(** src/file.c:143 *)
Definition announcement (old new : str) : str := old ++ bs " -> " ++ new ++ [Nb 10].

(** src/file.c:135, 153 *)
Definition refusal (old new why : str) : str :=
  bs "Cannot rename " ++ old ++ bs " to " ++ new ++ bs ": " ++ why ++ [Nb 10].

(** src/file.c:69-161 [parse_file].  The buffer of line 117 has exactly the size
    written. *)
Definition parse_file (filename : str) (o : options_t) : prog str :=
  let (dir, base) := split_path filename in
  let work := if is_protected base then None else Some base in
  let! cleaned := talking (sequence_run_says (o_platform o) (o_sequence_to_use o) work) in
  match cleaned with
  | None => Ret filename
  | Some work =>
    if str_eqb base work then Ret filename
    else
      let new_filename := dir ++ work in
      let! old_stat := sys (Lstat filename) in
      match old_stat with
      | inr _ => Ret filename
      | inl old =>
        let! new_stat := sys (Lstat new_filename) in
        if match new_stat with inl new => is_other_file old new | inr _ => false end then
          let! _ := print Stderr (refusal filename new_filename (bs "file already exists")) in
          Ret filename
        else
          let! _ := (if ((0 <? o_verbose o)%N || o_dry_run o)%bool
                     then print Stdout (announcement filename new_filename) else Ret tt) in
          if o_dry_run o then Ret filename
          else
            let! err := sys (Rename filename new_filename) in
            match err with
            | Some message =>
              let! _ := print Stderr (refusal filename new_filename message) in
              Ret filename
            | None => Ret new_filename
            end
      end
  end.

(** src/file.c:185, 215: the path of an entry, cut off by snprintf *)
Definition entry_path (filename d_name : str) : str :=
  firstn (length filename + 1023) (filename ++ bs "/" ++ d_name).

(** src/file.c:166-232 [parse_dir].  The ignore list is passed along because its
    cursor changes.  [st] in [dir_loop] is the variable stat_info, which keeps its
    old contents when lstat fails (line 217).  [fuel] bounds the number of nested
    calls; a run that exhausts it stops with [StopFuel], so that what holds of all
    runs for all [fuel] holds of every finite execution. *)
Fixpoint parse_dir (fuel : nat) (o : options_t) (filename : str) (ign : option filelist)
  : prog (option filelist) :=
  match fuel with
  | O => Stop StopFuel
  | S fuel' =>
    let! st := sys (Lstat filename) in
    match st with
    | inr _ => Ret ign
    | inl st =>
      if negb (isdir st) then Ret ign
      else
        let! h := sys (Opendir filename) in
        match h with
        | NotOpened emfile message =>
          let! _ := print Stderr (bs "unable to parse: " ++ message ++ [Nb 10]) in
          if emfile then Stop (StopExit EXIT_FAILURE) else Ret ign
        | Opened handle =>
          let! ign' := dir_loop fuel' o filename handle st ign in
          let! _ := sys (Closedir handle) in
          Ret ign'
        end
    end
  end
with dir_loop (fuel : nat) (o : options_t) (filename : str) (handle : N) (st : stat) (ign : option filelist)
  : prog (option filelist) :=
  match fuel with
  | O => Stop StopFuel
  | S fuel' =>
    let! entry := sys (Readdir handle) in
    match entry with
    | None => Ret ign
    | Some d_name =>
      let! ig := lift (ignore_file d_name ign) in
      let (ignored, ign) := ig in
      if ignored then dir_loop fuel' o filename handle st ign
      else
        let new_file := entry_path filename d_name in
        let! st' := sys (Lstat new_file) in
        let st := match st' with inl x => x | inr _ => st end in
        let! ign :=
          (if isdir st then
             let! work := parse_file new_file o in
             if o_recurse o then parse_dir fuel' o work ign else Ret ign
           else if (isreg st || o_special o)%bool then
             let! _ := parse_file new_file o in Ret ign
           else Ret ign) in
        dir_loop fuel' o filename handle st ign
    end
  end.

(** src/detox.c:92-110: one file argument *)
Definition process_argument (fuel : nat) (o : options_t) (file_walk : str) (ign : option filelist)
  : prog (option filelist) :=
  let! _ := (if (0 <? o_verbose o)%N then print Stdout (bs "Scanning: " ++ file_walk ++ [Nb 10]) else Ret tt) in
  let! st := sys (Lstat file_walk) in
  match st with
  | inr message =>
    let! _ := print Stderr (file_walk ++ bs ": " ++ message ++ [Nb 10]) in Ret ign
  | inl st =>
    if isdir st then
      let! work := parse_file file_walk o in
      parse_dir fuel o work ign
    else if (isreg st || o_special o)%bool then
      let! _ := parse_file file_walk o in Ret ign
    else Ret ign
  end.

(** src/detox.c:91-111: the loop over the file arguments, which are given here as the
    list the gets return (see C33) *)
Fixpoint process_arguments (fuel : nat) (o : options_t) (files : list str) (ign : option filelist)
  : prog (option filelist) :=
  match files with
  | [] => Ret ign
  | f :: rest =>
    let! ign := process_argument fuel o f ign in
    process_arguments fuel o rest ign
  end.
