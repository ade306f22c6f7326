(** * Specification: the whole program in memory *)

From Verif Require ConfigParse.
From Verif Require Import Base Stdio Filter Spoof ConfigLoad ConfigLoadSpec Prog Warnings File FileSpec Startup Main Mem MemSpec Words WordsSpec FilesSpec LinkedSpec CLoadSpec CReview CReviewSpec CRunSpec
  COptionsSpec CWorkSpec.

Local Open Scope nat_scope.

(** ** What is in memory at the beginning *)

(** The arguments, the value of DETOX_SEQUENCE, the string literals and the tables of
    src/builtin_table.c *)
Definition at_start (literal : str -> ptr) (static : static_table -> ptr) (sys : system) (argv : list str) (args : list ptr) (detox_sequence : option ptr) (s : store_t) : Prop :=
  Forall2 (cstr_at (s_heap s)) args argv /\ text_in (s_heap s) detox_sequence (e_getenv (m_env sys) (bs "DETOX_SEQUENCE")) /\
  literals_in (s_heap s) literal (the_literals ++ review_literals ++ run_literals) /\ statics_in s static [] /\ bounded (s_heap s).

(** ** Sizes *)

Definition says_options (sys : system) (argv : list str) : talk options_t :=
  parse_options_says (m_platform sys) (e_getenv (m_env sys)) (m_package sys) argv.

(** The configuration files that may be read *)
Definition to_read (sys : system) (o : options_t) : list str :=
  match o_check_config_file o with Some path => [path] | None => candidates (m_env sys) end.

(** The files are such that nothing overflows. *)
Definition readable (sys : system) (o : options_t) : Prop :=
  match o_check_config_file o with
  | Some path => moderate path (contents_of (e_files (m_env sys) path)) []
  | None => orderly (m_env sys)
  end.

(** Neither the command line nor any file is too long. *)
Definition manageable (sys : system) (argv : list str) (denied_size : str -> nat) : Prop :=
  modest argv /\ decent sys denied_size /\ forall o, snd (says_options sys argv) = Ok o -> readable sys o.

(** Memory that suffices to read the command line and the files *)
Definition reading_takes (sys : system) (o : options_t) : nat :=
  match o_check_config_file o with
  | Some path => length path + 1 + reading_room path (contents_of (e_files (m_env sys) path)) []
  | None => loading_room (m_env sys)
  end.

(** Such requests for memory are made: while the command line is read, while the configuration
    is, and after that.  All that was in memory at first is there. *)
Definition requested (sys : system) (argv : list str) (s : store_t) (h : heap) (n : N) : Prop :=
  within s (options_room argv) h n \/
  (exists o, snd (says_options sys argv) = Ok o /\ within s (options_room argv + reading_takes sys o) h n) \/
  more_than s h n.

(** No copy of a part of a configuration file is refused: that would go unnoticed. *)
Definition heedful (al : allocator) (sys : system) (argv : list str) (s : store_t) : Prop :=
  forall o path h n, snd (says_options sys argv) = Ok o -> In path (to_read sys o) -> for_text (contents_of (e_files (m_env sys) path)) n ->
    within s (options_room argv + reading_takes sys o) h n -> refusal_of h n = None.

(** The sequence that is used has been used so often that the counters of its tables may have
    overflowed. *)
Definition worn_out (sys : system) (argv : list str) (tr : list event) : Prop :=
  exists o c q, snd (says_options sys argv) = Ok o /\ snd (prepare_says sys (o_check_config_file o) (o_sequence_name o)) = Ok (c, q) /\ worn (m_platform sys) q 0 tr.
