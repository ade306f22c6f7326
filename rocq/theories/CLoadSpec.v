(** * Specification: loading the configuration in memory *)

From Verif Require ConfigParse.
From Verif Require Import Base Stdio Filter Spoof ConfigLoad ConfigLoadSpec Prog Warnings Mem MemSpec Words WordsSpec FilesSpec LinkedSpec.

Local Open Scope nat_scope.

(** The string literals that are read as strings. *)
Definition the_literals : list str :=
  map bs ["safe"; "built-in config file"; "default"; "iso8859_1"; "iso8859_1-legacy"; "cp1252"; "utf_8"; "unicode"; "uncgi"; "lower"; "iso8859_1-only"; "cp1252-only"; "utf_8-only";
          "uncgi-only"; "lower-only"; "{arch}"; "/etc/detoxrc"; "/usr/local/etc/detoxrc"]%string.

Definition literals_in (h : heap) (literal : str -> ptr) (l : list str) : Prop := forall x, In x l -> cstr_at h (literal x) x.

(** The files that may be read. *)
Definition candidates (env : environment) : list str := system_paths env ++ user_paths env.
Definition total (env : environment) : nat := list_sum (map (fun p => length (contents_of (e_files env p))) (candidates env)).

(** The paths are strings whose length is an int, and nothing overflows. *)
Definition orderly (env : environment) : Prop :=
  Forall (fun p => nonul p /\ (Z.of_nat (length p) <= int_max)%Z) (candidates env) /\
  (N.of_nat (256 + total env) < 2 ^ 32)%N /\ (Z.of_nat (total env + 32) <= int_max)%Z.

(** Memory that suffices: for the path, for 5 files, for the built-in configuration. *)
Definition loading_room (env : environment) : nat :=
  256 + 5 * 168 + total env * (56 + 3 * (256 + total env + 1) + 8 * (total env + 32)) + 2048.

(** A configuration, as on lists, and otherwise memory as before. *)
Definition loads (s : store_t) (lost room : nat) (c : config_t) (p : ptr) (s' : store_t) : Prop :=
  exists own, loaded_at s' p c own /\ evolves [] own lost s s' /\ heap_size (s_heap s') <= heap_size (s_heap s) + room.
