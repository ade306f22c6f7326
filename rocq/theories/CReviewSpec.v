(** * Specification: a sequence with its tables in memory *)

From Verif Require ConfigParse.
From Verif Require Import Base Stdio Table ParseTable BuiltinTables Filter ConfigLoad Spoof Prog Warnings Startup Mem MemSpec Words WordsSpec FilesSpec LinkedSpec LoadSpec CLoadSpec CReview.

Local Open Scope nat_scope.

(** The string literals that src/filter.c and src/sequence.c compare with or open. *)
Definition review_literals : list str :=
  map bs ["default"; "iso8859_1"; "unicode"; "safe"; "cp1252"; "iso8859_1.tbl"; "unicode.tbl"; "safe.tbl"]%string.

(** The tables in src/builtin_table.c are at their addresses; they do not use the blocks [own]. *)
Definition static_value (x : static_table) : table :=
  match x with
  | Static_safe => builtin_safe_table | Static_iso8859_1 => builtin_iso8859_1_table
  | Static_unicode => builtin_unicode_table | Static_cp1252 => builtin_cp1252_table
  end.

Definition statics_in (s : store_t) (static : static_table -> ptr) (own : list nat) : Prop :=
  forall x, exists c blocks, table_seen s (static x) (static_value x) c blocks /\ forall b, In b blocks -> ~ In b own.

(** A filter of a known kind. *)
Definition familiar (f : filter_t) : Prop := forall v, f_cleaner f <> F_unknown v.

(** The table files are such that nothing overflows; the directory for data is a string. *)
Definition decent (sys : system) (denied_size : str -> nat) : Prop :=
  (forall path, (Z.of_nat (ParseTableSpec.room (contents_of (e_files (m_env sys) path))) < int_max)%Z) /\
  (forall path, (Z.of_nat (table_capacity (denied_size path)) <= int_max)%Z) /\
  match e_datadir (m_env sys) with Some d => nonul d /\ (Z.of_nat (length d) + 32 <= int_max)%Z | None => True end.

(** NULL, or the address of a table that no more than [k] lookups were made in. *)
Definition seldom (k : nat) (c : counters) : Prop := (n_hits c <= Z.of_nat k /\ n_misses c <= Z.of_nat k /\ n_seeks c <= Z.of_nat k)%Z.

Definition table_of (s : store_t) (q : option ptr) (t : option table) (k : nat) (own : list nat) : Prop :=
  match q, t with
  | None, None => own = []
  | Some q, Some t => exists c, table_at s q t c own /\ seldom k c
  | _, _ => False
  end.

(** Like [filters_at], with tables. *)
Fixpoint reviewed_at (s : store_t) (ps : list ptr) (fs : list filter_t) (k : nat) (own : list nat) : Prop :=
  match ps, fs with
  | [], [] => own = []
  | p :: ps, f :: fs =>
    exists filename builtin table town rest,
      content s p [Adr (first ps None); Num (code_of (f_cleaner f)); Adr filename; Adr builtin;
                   Num (if f_remove_trailing f then 1 else 0); Num (Z.of_N (f_max_length f)); Adr table] /\
      string_in (s_heap s) filename (f_filename f) /\ string_in (s_heap s) builtin (f_builtin f) /\
      table_of s table (f_table f) k town /\
      own = p_block p :: block_list [filename; builtin] ++ town ++ rest /\ reviewed_at s ps fs k rest
  | _, _ => False
  end.

(** [p] points to the sequence [q], ready for use. *)
Definition ready_at (s : store_t) (p : ptr) (q : sequence_t) (k : nat) (own : list nat) : Prop :=
  exists next name source fps fown,
    content s p [Adr next; Adr (Some name); Adr (first fps None); Adr source] /\
    string_in (s_heap s) (Some name) (Some (s_name q)) /\ string_in (s_heap s) source (s_source q) /\
    reviewed_at s fps (s_filters q) k fown /\ own = p_block p :: block_list [Some name; source] ++ fown /\ NoDup own.

(** Memory as before, and more. *)
Definition beyond (s : store_t) (h : heap) (n : N) : Prop := exists more, h = s_heap s ++ more.

(** The filters have got their tables.  Their blocks and new ones are in use; nothing else in
    memory has changed. *)
Definition reviews (s : store_t) (ps : list ptr) (own : list nat) (fs : list filter_t) (s' : store_t) : Prop :=
  (exists more, s_heap s' = s_heap s ++ more) /\ (forall b, b < length (s_heap s) -> ~ In b own -> s_words s' b = s_words s b) /\
  exists own', reviewed_at s' ps fs 0 own' /\ NoDup own' /\ (forall b, In b own' -> In b own \/ length (s_heap s) <= b).

(** ** From the options to the sequence *)

(** src/detox.c:43-82 on lists, the beginning of [Main.main] *)
Definition prepare_says (sys : system) (file name : option str) : talk (config_t * sequence_t) :=
  let% c := config_file_load_says (m_env sys) file in
  match sequence_choose_default (cf_sequences c) name with
  | None => let% _ := complain (bs "detox: no sequence to work with") in quietly (Exit EXIT_FAILURE)
  | Some q =>
    let% q := sequence_review_says (e_datadir (m_env sys)) (table_at_says sys) q in
    done (c, q)
  end.

(** Memory with a configuration, and more *)
Definition once_loaded (s : store_t) (h : heap) (n : N) : Prop :=
  exists s1 p c own lost, loaded_at s1 p c own /\ evolves [] own lost s s1 /\ beyond s1 h n.

(** The sequence and the list of files to ignore are in new memory; what was there before is
    as it was. *)
Definition prepares (s : store_t) (b : config_t * sequence_t) (a : ptr * ptr) (s' : store_t) : Prop :=
  exists ignore iown own,
    content s' (fst a) [Any; Adr ignore] /\ ignored_at s' ignore (cf_ignore (fst b)) iown /\ ready_at s' (snd a) (snd b) 0 own /\
    NoDup (p_block (fst a) :: iown) /\ (forall x, In x (p_block (fst a) :: iown) -> ~ In x own) /\
    (forall x, In x (p_block (fst a) :: iown ++ own) -> length (s_heap s) <= x) /\
    (forall x, x < length (s_heap s) -> nth_error (s_heap s') x = nth_error (s_heap s) x /\ s_words s' x = s_words s x).
