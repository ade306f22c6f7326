(** * Model of src/filter.c and src/sequence.c *)

From Verif Require Import Base Table BuiltinTables CleanString CleanUtf8.

(** src/detox_struct.h:17-25.  [F_unknown] is any other value of the int,
    which is taken modulo 2^32. *)
Inductive cleaner :=
| F_iso8859_1 | F_lower | F_max_length | F_safe | F_uncgi | F_utf_8 | F_wipeup
| F_unknown (value : N).

(** src/detox_struct.h:59-67 [filter_t]; the [next] link is the list the filter is in. *)
Record filter_t := mkFilter {
  f_cleaner : cleaner;
  f_filename : option str;
  f_builtin : option str;
  f_remove_trailing : bool;
  f_max_length : N;
  f_table : option table
}.

(** src/detox_struct.h:72-77 [sequence_t] *)
Record sequence_t := mkSequence {
  s_name : str;
  s_filters : list filter_t;
  s_source : option str
}.

(** Platform: signedness of plain char, and the ctype of the current locale. *)
Record platform := mkPlatform { p_schar : bool; p_ctype : ctype }.

(** src/filter.c:69-80 [filter_init] *)
Definition filter_init (c : cleaner) : filter_t := mkFilter c None None false 0 None.

(** src/filter.c:194-242 [filter_run] for a non-NULL filter; the filename is None
    when it is the NULL pointer. *)
Definition filter_run (pf : platform) (f : filter_t) (filename : option str) : res (option str) :=
  match filename with
  | None => Ok None
  | Some name =>
    let some (r : res str) := do x <- r; Ok (Some x) in
    match f_cleaner f with
    | F_iso8859_1 => some (clean_iso8859_1 name (f_table f))
    | F_lower => some (clean_lower (p_ctype pf) name)
    | F_max_length => some (clean_max_length name (f_max_length f))
    | F_safe => some (clean_safe (p_schar pf) name (f_table f))
    | F_uncgi => some (clean_uncgi name)
    | F_utf_8 => some (clean_utf_8 name (f_table f))
    | F_wipeup => some (clean_wipeup name (f_remove_trailing f))
    | F_unknown _ => Exit EXIT_FAILURE
    end
  end.

(** src/sequence.c:116-121: the loop over the filters *)
Fixpoint run_filters (pf : platform) (fs : list filter_t) (work : option str) : res (option str) :=
  match fs, work with
  | [], _ => Ok work
  | _, None => Ok None
  | f :: rest, Some _ => do hold <- filter_run pf f work; run_filters pf rest hold
  end.

(** src/sequence.c:98-124 [sequence_run_filters]; None as sequence is NULL *)
Definition sequence_run_filters (pf : platform) (seq : option sequence_t) (filename : option str)
  : res (option str) :=
  match seq with
  | None => Exit EXIT_FAILURE
  | Some s =>
    match filename with
    | None => Ok None
    | Some name => run_filters pf (s_filters s) (Some name)
    end
  end.

(** ** Tables for filters *)

(** src/detox_struct.h:15 *)
Definition MAX_PATH_LEN : N := 256.

(** src/filter.c:30-66 [filter_find_table].  [parse] is parse_table as a function of
    the path (None is NULL); [datadir] is the compile-time DATADIR, None when it is
    not defined. *)
Definition try_table (parse : str -> option table) (path : str) : option table :=
  if (strlen path <? MAX_PATH_LEN)%N then parse path else None.

Definition filter_find_table (datadir : option str) (parse : str -> option table) (name : str)
  : option table :=
  let in_datadir := match datadir with
                    | Some d => try_table parse (d ++ bs "/detox/" ++ name)
                    | None => None
                    end in
  match in_datadir with
  | Some t => Some t
  | None =>
    match try_table parse (bs "/usr/share/detox/" ++ name) with
    | Some t => Some t
    | None => try_table parse (bs "/usr/local/share/detox/" ++ name)
    end
  end.

(** src/filter.c:87-98 [filter_load_builtin] *)
Definition filter_load_builtin (c : cleaner) : option table :=
  match c with
  | F_iso8859_1 => Some load_builtin_iso8859_1_table
  | F_utf_8 => Some load_builtin_unicode_table
  | F_safe => Some load_builtin_safe_table
  | _ => None
  end.

(** src/filter.c:111-124 [filter_load_builtin_by_filename] *)
Definition filter_load_builtin_by_filename (name : str) : option table :=
  if str_eqb name (bs "iso8859_1") then Some load_builtin_iso8859_1_table
  else if str_eqb name (bs "unicode") then Some load_builtin_unicode_table
  else if str_eqb name (bs "safe") then Some load_builtin_safe_table
  else if str_eqb name (bs "cp1252") then Some load_builtin_cp1252_table
  else None.

(** src/filter.c:137-145 *)
Definition default_table_name (c : cleaner) : option str :=
  match c with
  | F_iso8859_1 => Some (bs "iso8859_1.tbl")
  | F_utf_8 => Some (bs "unicode.tbl")
  | F_safe => Some (bs "safe.tbl")
  | _ => None
  end.

(** src/filter.c:131-184 [filter_load_table] *)
Definition filter_load_table (datadir : option str) (parse : str -> option table) (f : filter_t)
  : res (option table) :=
  match default_table_name (f_cleaner f) with
  | None => Ok None
  | Some check_filename =>
    match f_builtin f with
    | Some b =>
      match filter_load_builtin_by_filename b with
      | Some t => Ok (Some t)
      | None => Exit EXIT_FAILURE
      end
    | None =>
      match f_filename f with
      | None =>
        match filter_find_table datadir parse check_filename with
        | Some t => Ok (Some t)
        | None =>
          match filter_load_builtin (f_cleaner f) with
          | Some t => Ok (Some t)
          | None => Exit EXIT_FAILURE
          end
        end
      | Some file =>
        match parse file with
        | Some t => Ok (Some t)
        | None => Exit EXIT_FAILURE
        end
      end
    end
  end.

(** src/sequence.c:75-88 [sequence_review]: one filter *)
Definition with_table (f : filter_t) (t : option table) : filter_t :=
  match t with
  | Some _ => mkFilter (f_cleaner f) (f_filename f) (f_builtin f) (f_remove_trailing f) (f_max_length f) t
  | None => f
  end.

Fixpoint review_filters (datadir : option str) (parse : str -> option table) (fs : list filter_t)
  : res (list filter_t) :=
  match fs with
  | [] => Ok []
  | f :: rest =>
    do t <- filter_load_table datadir parse f;
    do rest' <- review_filters datadir parse rest;
    Ok (with_table f t :: rest')
  end.

(** src/sequence.c:75-88 [sequence_review] *)
Definition sequence_review (datadir : option str) (parse : str -> option table) (s : sequence_t)
  : res sequence_t :=
  do fs <- review_filters datadir parse (s_filters s);
  Ok (mkSequence (s_name s) fs (s_source s)).

(** src/sequence.c:28-54 [sequence_choose_default] *)
Definition sequence_choose_default (sequences : list sequence_t) (name : option str) : option sequence_t :=
  let wanted := match name with Some n => n | None => bs "default" end in
  match find (fun s => str_eqb (s_name s) wanted) sequences with
  | Some s => Some s
  | None =>
    match name with
    | Some _ => None
    | None => match sequences with [] => None | s :: _ => Some s end
    end
  end.
