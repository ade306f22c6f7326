(** * Model of src/config_file.c: which configuration files are read *)

From Verif Require Import Base Stdio Filter Spoof ConfigLex ConfigParse.

Local Open Scope nat_scope.

(** What the program sees of its surroundings at start-up: the files, the environment, and
    the compile-time constants SYSCONFDIR and DATADIR (None when not defined).  Nothing
    here changes while configuration and tables are being read. *)
Record environment := mkEnv {
  e_files : str -> file_at;
  e_getenv : str -> option str;
  e_sysconfdir : option str;
  e_datadir : option str
}.

(** snprintf into MAX_PATH_LEN bytes; the file is only read if the path fits. *)
Definition parse_if_short (files : str -> file_at) (path : str) (previous : option config_t) : wres (option config_t) :=
  if (strlen path <? MAX_PATH_LEN)%N then parse_config_file files path previous else ([], Ok previous).

Definition or_else (files : str -> file_at) (path : str) (c : option config_t) : wres (option config_t) :=
  match c with
  | None => parse_config_file files path None
  | Some _ => ([], Ok c)
  end.

(** src/config_file.c:37-97 [config_file_load] *)
Definition config_file_load (env : environment) (check_config_file : option str) : wres config_t :=
  let files := e_files env in
  match check_config_file with
  | Some path =>
    wbind (parse_config_file files path None) (fun c =>
      match c with
      | Some c => ([], Ok c)
      | None => ([], Exit EXIT_FAILURE)
      end)
  | None =>
    wbind (match e_sysconfdir env with
           | Some d => parse_if_short files (d ++ bs "/detoxrc") None
           | None => ([], Ok None)
           end) (fun c =>
    wbind (or_else files (bs "/etc/detoxrc") c) (fun c =>
    wbind (or_else files (bs "/usr/local/etc/detoxrc") c) (fun c =>
    wbind (match e_getenv env (bs "HOME") with
           | Some h => parse_if_short files (h ++ bs "/.detoxrc") c
           | None => ([], Ok c)
           end) (fun c =>
    wbind (match e_getenv env (bs "XDG_CONFIG_HOME") with
           | Some h => parse_if_short files (h ++ bs "/detox/detoxrc") c
           | None => ([], Ok c)
           end) (fun c =>
    match c with
    | Some c => ([], Ok c)
    | None => ([], Ok spoof_config_file)
    end)))))
  end.
