(** * Specification: escape-utf-8 in memory *)

From Verif Require Import Base Stdio Table Filter Prog Inline Escape Mem MemSpec Words WordsSpec CLoadSpec CReviewSpec CRunSpec CWorkSpec.

Local Open Scope nat_scope.

(** The string literals it uses *)
Definition escape_literals : list str := run_literals ++ map bs ["utf_8-escape"; "escape_utf_8.c"]%string.

(** What is in memory when main begins: the literals, and the table of lines 68-81 *)
Definition escape_start (literal : str -> ptr) (static : ptr) (m : store_t) : Prop :=
  literals_in (s_heap m) literal escape_literals /\ (exists c blocks, table_seen m static builtin_c_escape_table c blocks) /\ bounded (s_heap m).

(** The sequence: one filter, with the table *)
Definition escape_filter : filter_t := mkFilter F_utf_8 (Some (bs "escape_utf_8.c")) None false 0 (Some generate_c_escape_table).
Definition escape_sequence : sequence_t := mkSequence (bs "utf_8-escape") [escape_filter] (Some (bs "escape_utf_8.c")).

(** 95 lookups are made while the table is built.  So many characters after that that an int
    cannot hold the number of lookups: *)
Definition escape_worn (pf : platform) (tr : list event) : Prop := worn pf escape_sequence 95 tr.

(** The memory that building the table and the sequence takes: 16 bytes for a text; the table,
    which has 0x110000 rows and a copy of each of the 36 texts that it starts with; then no more
    than 11 bytes for each character; and the options, the sequence and the filter with their
    strings *)
Definition table_takes : N := 16 + (64 + 16 * 0x110000 + 158) + 11 * (95 + (0x10000 - 0x80) + (0x110000 - 0x10000)).
Definition sequence_takes : N := 72 + (32 + 13) + 15 + 56 + 15.

(** A request that would take the memory in use beyond what it was in [m] by no more than
    [amount] *)
Definition taking (m : store_t) (amount : N) (h : heap) (n : N) : Prop := (N.of_nat (heap_size h) + n <= N.of_nat (heap_size (s_heap m)) + amount)%N.

(** The request that was refused: one of these, or one made later *)
Definition escape_asked (m : store_t) (h : heap) (n : N) : Prop := taking m (table_takes + sequence_takes) h n \/ more_than m h n.
