(** * Series of configuration files *)

From Verif Require Import Base Stdio ParseTableSpec Filter Spoof ConfigLex ConfigParse ConfigLoad ConfigSpec.

Local Open Scope nat_scope.

(** Reading files one after the other, each on top of what came before. *)
Fixpoint read_all (files : str -> file_at) (paths : list str) (previous : option config_t) : wres (option config_t) :=
  match paths with
  | [] => ([], Ok previous)
  | p :: rest => wbind (parse_config_file files p previous) (read_all files rest)
  end.

(** [defined_in files paths ds]: the definitions of files that either do not exist or
    follow the grammar. *)
Inductive defined_in (files : str -> file_at) : list str -> list located -> Prop :=
| di_nil : defined_in files [] []
| di_missing p rest ds : files p = NoFile -> defined_in files rest ds -> defined_in files (p :: rest) ds
| di_file p bytes ts printed here rest ds :
    files p = Contents bytes -> scans bytes ts printed -> config_text ts here -> defined_in files rest ds ->
    defined_in files (p :: rest) (map (pair p) here ++ ds).

(** ** Which files *)

Definition system_paths (env : environment) : list str :=
  match e_sysconfdir env with Some d => [d ++ bs "/detoxrc"] | None => [] end ++
  [bs "/etc/detoxrc"; bs "/usr/local/etc/detoxrc"].

Definition user_paths (env : environment) : list str :=
  match e_getenv env (bs "HOME") with Some d => [d ++ bs "/.detoxrc"] | None => [] end ++
  match e_getenv env (bs "XDG_CONFIG_HOME") with Some d => [d ++ bs "/detox/detoxrc"] | None => [] end.

(** Paths of 256 characters or more are not considered. *)
Definition considered (env : environment) (p : str) : bool :=
  (length p <? 256) && match e_files env p with NoFile => false | _ => true end.

Definition config_paths (env : environment) : list str :=
  firstn 1 (filter (considered env) (system_paths env)) ++ filter (considered env) (user_paths env).

(** ** What can be written *)

Definition writable (s : str) : Prop := nonul s /\ ~ In quote s /\ ~ In newline s.

Inductive writable_filter : filter_t -> Prop :=
| wf_plain c : (forall v, c <> F_unknown v) -> writable_filter (plain c)
| wf_file c n : In c [F_iso8859_1; F_utf_8; F_safe] -> writable n -> writable_filter (with_file c n)
| wf_builtin c n : In c [F_iso8859_1; F_utf_8; F_safe] -> writable n -> writable_filter (with_builtin c n)
| wf_trailing : writable_filter (mkFilter F_wipeup None None true 0 None)
| wf_length n : (n < 2 ^ 31)%N -> writable_filter (mkFilter F_max_length None None false n None).

Definition writable_definition (d : definition) : Prop :=
  match d with
  | Sequence n fs => writable n /\ fs <> [] /\ Forall writable_filter fs
  | Ignore ns => ns <> [] /\ Forall writable ns
  end.

(** A configuration without the names of the files it came from. *)
Definition without_source (c : config_t) : config_t :=
  mkConfig (map (fun s => mkSequence (s_name s) (s_filters s) None) (cf_sequences c)) (cf_ignore c).
