(** * Model of src/parse_options.c (with HAVE_GETOPT_LONG) *)

From Verif Require Import Base Filter Filelist File ConfigParse.

Local Open Scope nat_scope.

(** ** The C library: basename and getopt_long *)

(** libgen.h basename; [rev_path] is the path with its last byte first *)
Fixpoint skip_slashes (rev_path : str) : str :=
  match rev_path with
  | [] => []
  | c :: r => if beq c "/" then skip_slashes r else rev_path
  end.

Fixpoint until_slash (rev_path : str) : str :=
  match rev_path with
  | [] => []
  | c :: r => if beq c "/" then [] else c :: until_slash r
  end.

Definition basename (path : option str) : str :=
  match path with
  | None | Some [] => bs "."
  | Some p =>
    match skip_slashes (rev p) with
    | [] => bs "/"
    | r => rev (until_slash r)
    end
  end.

(** How a long option is reported: by a value, or by storing one in [long_option]. *)
Inductive report := Value (c : byte) | Stored (n : N).

(** The codes getopt_long returns: a character with optarg, or 0 with [long_option]. *)
Inductive code := Short (c : byte) (optarg : option str) | Long (n : N).

Definition coded (r : report) : code :=
  match r with Value c => Short c None | Stored n => Long n end.

(** The error code. *)
Definition BAD : code := Short "?"%byte None.

Section getopt.
  (** The characters of optstring, with whether a ':' follows, and the long options, none
      of which takes an argument. *)
  Variable letters : list (byte * bool).
  Variable longopts : list (str * report).

  (** strchr(optstring, c), never ':' *)
  Definition takes_argument (c : byte) : option bool :=
    option_map snd (find (fun l => beq (fst l) c) letters).

  (** The rest of an argument "-...": the codes, and the option whose argument is still
      missing at the end. *)
  Fixpoint cluster (s : str) : list code * option byte :=
    match s with
    | [] => ([], None)
    | c :: r =>
      match takes_argument c with
      | None => let (l, p) := cluster r in (BAD :: l, p)
      | Some false => let (l, p) := cluster r in (Short c None :: l, p)
      | Some true => match r with [] => ([], Some c) | _ => ([Short c (Some r)], None) end
      end
    end.

  Fixpoint is_prefix (p s : str) : bool :=
    match p, s with
    | [], _ => true
    | x :: p', y :: s' => beq x y && is_prefix p' s'
    | _, [] => false
    end.

  (** The name in "--name=value", and whether there is a '='. *)
  Fixpoint upto_equals (s : str) : str * bool :=
    match s with
    | [] => ([], false)
    | c :: r => if beq c "=" then ([], true) else let (n, e) := upto_equals r in (c :: n, e)
    end.

  (** An exact match, or else the only option that begins with the name. *)
  Definition long_match (name : str) : option report :=
    match find (fun o => str_eqb (fst o) name) longopts with
    | Some o => Some (snd o)
    | None =>
      match filter (fun o => is_prefix name (fst o)) longopts with
      | [o] => Some (snd o)
      | _ => None
      end
    end.

  Definition long_code (arg : str) : code :=
    let (name, equals) := upto_equals arg in
    match long_match name with
    | Some r => if equals then BAD else coded r
    | None => BAD
    end.

  (** The successive results of getopt_long, and the arguments from optind on when it has
      returned -1 (glibc: with permutation unless POSIXLY_CORRECT is in the environment).
      [skipped] are the non-options passed so far.  For the messages see Startup.v. *)
  Fixpoint getopt_long (posixly_correct : bool) (args skipped : list str) : list code * list str :=
    match args with
    | [] => ([], skipped)
    | a :: rest =>
      match a with
      | c :: (d :: r) as a' =>
        if negb (beq c "-") then
          if posixly_correct then ([], args) else getopt_long posixly_correct rest (skipped ++ [a])
        else if beq d "-" then
          match r with
          | [] => ([], skipped ++ rest)
          | _ =>
            let (l, files) := getopt_long posixly_correct rest skipped in
            (long_code r :: l, files)
          end
        else
          match cluster a' with
          | (codes, None) =>
            let (l, files) := getopt_long posixly_correct rest skipped in
            (codes ++ l, files)
          | (codes, Some p) =>
            match rest with
            | [] => (codes ++ [BAD], skipped)
            | v :: rest' =>
              let (l, files) := getopt_long posixly_correct rest' skipped in
              (codes ++ Short p (Some v) :: l, files)
            end
          end
      | _ => if posixly_correct then ([], args) else getopt_long posixly_correct rest (skipped ++ [a])
      end
    end.
End getopt.

(** ** src/parse_options.c *)

(** lines 27-31 *)
Definition LONG_OPTION_INLINE : N := 1.
Definition LONG_OPTION_RECURSIVE : N := 2.
Definition LONG_OPTION_SPECIAL : N := 3.

(** lines 39-53 *)
Definition longopts : list (str * report) :=
  [ (bs "dry-run", Value "n"%byte); (bs "help", Value "h"%byte); (bs "verbose", Value "v"%byte);
    (bs "inline", Stored LONG_OPTION_INLINE); (bs "recursive", Stored LONG_OPTION_RECURSIVE);
    (bs "special", Stored LONG_OPTION_SPECIAL) ].

(** line 140: "hrvV?Ls:f:n" *)
Definition letters : list (byte * bool) :=
  [("h"%byte, false); ("r"%byte, false); ("v"%byte, false); ("V"%byte, false); ("?"%byte, false);
   ("L"%byte, false); ("s"%byte, true); ("f"%byte, true); ("n"%byte, false)].

Definition tab : byte := x09.
Definition eol : byte := x0a.

(** lines 59-66 *)
Definition usage_message : str :=
  bs "usage: detox [-hLnrvV] [-f configfile] [-s sequence]" ++
  bs " [--dry-run] [--help] [--inline] [--recursive] [--special] [--verbose]" ++ [eol; tab; " "%byte] ++
  bs " file [file ...]" ++ [eol].

Definition help_line (option after : string) : str := [tab] ++ bs option ++ [tab] ++ bs after ++ [eol].

(** lines 68-95 *)
Definition help_message : str :=
  help_line "-f configfile" "choose which config file to use" ++
  help_line "-h --help" "this message" ++
  help_line "--inline" "run inline mode" ++
  [tab] ++ bs "-L" ++ [tab; tab] ++ bs "list available sequences and exit" ++ [eol] ++
  [tab; tab; tab] ++ bs "with -v ... dump sequence contents" ++ [eol] ++
  help_line "-n --dry-run" "do a dry run (don't actually do anything)" ++
  help_line "-r --recursive" "be recursive (descend into subdirectories)" ++
  help_line "-s sequence" "choose which sequence to detox with" ++
  help_line "--special" "work on links and special files" ++
  help_line "-v --verbose " "be verbose" ++
  [tab] ++ bs "-V " ++ [tab; tab] ++ bs "show the current version" ++ [eol].

(** lines 97-111 *)
Definition usage_message_inline : str :=
  bs "usage: inline-detox [-hLvV] [-f configfile] [-s sequence] [file]" ++ [eol].

Definition help_message_inline : str :=
  help_line "-f configfile" "choose which config file to use" ++
  help_line "-h --help" "this message" ++
  [tab] ++ bs "-L" ++ [tab; tab] ++ bs "list available sequences and exit" ++ [eol] ++
  [tab; tab; tab] ++ bs "with -v ... dump sequence contents" ++ [eol] ++
  help_line "-s sequence" "choose which sequence to detox with" ++
  help_line "-v --verbose " "be verbose" ++
  [tab] ++ bs "-V " ++ [tab; tab] ++ bs "show the current version" ++ [eol].

(** Assignments to members of options_t. *)
Definition set_dry_run (o : options_t) : options_t :=
  mkOptions (o_platform o) true (o_is_inline_bin o) (o_is_inline_mode o) (o_list_sequences o) (o_recurse o)
    (o_special o) (o_verbose o) (o_sequence_to_use o) (o_files_to_ignore o) (o_sequence_name o)
    (o_check_config_file o) (o_files o).
Definition set_inline_mode (o : options_t) : options_t :=
  mkOptions (o_platform o) (o_dry_run o) (o_is_inline_bin o) true (o_list_sequences o) (o_recurse o)
    (o_special o) (o_verbose o) (o_sequence_to_use o) (o_files_to_ignore o) (o_sequence_name o)
    (o_check_config_file o) (o_files o).
Definition set_list_sequences (o : options_t) : options_t :=
  mkOptions (o_platform o) (o_dry_run o) (o_is_inline_bin o) (o_is_inline_mode o) true (o_recurse o)
    (o_special o) (o_verbose o) (o_sequence_to_use o) (o_files_to_ignore o) (o_sequence_name o)
    (o_check_config_file o) (o_files o).
Definition set_recurse (o : options_t) : options_t :=
  mkOptions (o_platform o) (o_dry_run o) (o_is_inline_bin o) (o_is_inline_mode o) (o_list_sequences o) true
    (o_special o) (o_verbose o) (o_sequence_to_use o) (o_files_to_ignore o) (o_sequence_name o)
    (o_check_config_file o) (o_files o).
Definition set_special (o : options_t) : options_t :=
  mkOptions (o_platform o) (o_dry_run o) (o_is_inline_bin o) (o_is_inline_mode o) (o_list_sequences o) (o_recurse o)
    true (o_verbose o) (o_sequence_to_use o) (o_files_to_ignore o) (o_sequence_name o)
    (o_check_config_file o) (o_files o).
Definition more_verbose (o : options_t) : options_t :=
  mkOptions (o_platform o) (o_dry_run o) (o_is_inline_bin o) (o_is_inline_mode o) (o_list_sequences o) (o_recurse o)
    (o_special o) (o_verbose o + 1) (o_sequence_to_use o) (o_files_to_ignore o) (o_sequence_name o)
    (o_check_config_file o) (o_files o).
Definition set_sequence_name (n : str) (o : options_t) : options_t :=
  mkOptions (o_platform o) (o_dry_run o) (o_is_inline_bin o) (o_is_inline_mode o) (o_list_sequences o) (o_recurse o)
    (o_special o) (o_verbose o) (o_sequence_to_use o) (o_files_to_ignore o) (Some n)
    (o_check_config_file o) (o_files o).
Definition set_check_config_file (n : str) (o : options_t) : options_t :=
  mkOptions (o_platform o) (o_dry_run o) (o_is_inline_bin o) (o_is_inline_mode o) (o_list_sequences o) (o_recurse o)
    (o_special o) (o_verbose o) (o_sequence_to_use o) (o_files_to_ignore o) (o_sequence_name o)
    (Some n) (o_files o).
Definition set_files (l : filelist) (o : options_t) : options_t :=
  mkOptions (o_platform o) (o_dry_run o) (o_is_inline_bin o) (o_is_inline_mode o) (o_list_sequences o) (o_recurse o)
    (o_special o) (o_verbose o) (o_sequence_to_use o) (o_files_to_ignore o) (o_sequence_name o)
    (o_check_config_file o) (Some l).

Definition usage (o : options_t) : str := if o_is_inline_bin o then usage_message_inline else usage_message.
Definition help (o : options_t) : str := if o_is_inline_bin o then help_message_inline else help_message.

(** lines 144-216: the switch.  [verbose] is an int; its overflow is not modelled. *)
Definition option_code (package_string : str) (c : code) (o : options_t) : wres options_t :=
  match c with
  | Long n =>
    if (n =? LONG_OPTION_INLINE)%N then ([], Ok (set_inline_mode o))
    else if (n =? LONG_OPTION_RECURSIVE)%N then ([], Ok (set_recurse o))
    else if (n =? LONG_OPTION_SPECIAL)%N then ([], Ok (set_special o))
    else ([], UB NullDeref)      (* printf("%s", optarg) with optarg == NULL *)
  | Short c optarg =>
    if beq c "h" then (usage o ++ [eol] ++ help o, Exit EXIT_SUCCESS)
    else if beq c "f" then
      match optarg with Some v => ([], Ok (set_check_config_file v o)) | None => ([], UB NullDeref) end
    else if beq c "L" then ([], Ok (set_list_sequences o))
    else if beq c "n" then ([], Ok (set_dry_run o))
    else if beq c "r" then ([], Ok (set_recurse o))
    else if beq c "s" then
      match optarg with Some v => ([], Ok (set_sequence_name v o)) | None => ([], UB NullDeref) end
    else if beq c "v" then ([], Ok (more_verbose o))
    else if beq c "V" then (package_string ++ [eol], Exit EXIT_SUCCESS)
    else if beq c "?" then (usage o, Exit EXIT_SUCCESS)
    else ([], Exit EXIT_FAILURE)
  end.

(** lines 139-217: the loop *)
Fixpoint option_codes (package_string : str) (cs : list code) (o : options_t) : wres options_t :=
  match cs with
  | [] => ([], Ok o)
  | c :: rest => wbind (option_code package_string c o) (option_codes package_string rest)
  end.

(** lines 229-232 *)
Fixpoint put_files (l : filelist) (files : list str) : res filelist :=
  match files with
  | [] => Ok l
  | f :: rest => do l' <- filelist_put (Some l) f; put_files l' rest
  end.

(** lines 115-137 *)
Definition options_start (pf : platform) (getenv : str -> option str) (argv0 : option str) : options_t :=
  let inline := str_eqb (basename argv0) (bs "inline-detox") in
  mkOptions pf false inline inline false false false 0 None None (getenv (bs "DETOX_SEQUENCE")) None None.

(** lines 126-240 [parse_options_getopt] *)
Definition parse_options_getopt (pf : platform) (getenv : str -> option str) (package_string : str) (argv : list str)
  : wres options_t :=
  let posixly_correct := match getenv (bs "POSIXLY_CORRECT") with Some _ => true | None => false end in
  let (codes, files) := getopt_long letters longopts posixly_correct (tl argv) [] in
  wbind (option_codes package_string codes (options_start pf getenv (hd_error argv))) (fun o =>
    if o_list_sequences o then ([], Ok o)
    else
      match files with
      | [] => if o_is_inline_mode o then ([], Ok (set_files filelist_init o)) else (usage o, Exit EXIT_FAILURE)
      | _ => ([], do l <- put_files filelist_init files; Ok (set_files l o))
      end).
