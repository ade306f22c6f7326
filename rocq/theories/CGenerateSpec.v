(** * What the generator of built-in tables takes and leaves in memory *)

From Verif Require Import Base Table TableSpec Prog ParseTable ParseTableSpec TableFileSpec CheckTable Mem MemSpec Words WordsSpec TablesSpec LoadSpec CheckSpec CCheckSpec.

Local Open Scope nat_scope.

(** The largest code in a file. *)
Definition largest (ds : list directive) : N := fold_right N.max 0%N (map fst (entries ds)).

(** Nothing is freed but the buffers: there are the table that was loaded, the one that is
    printed, each with the default text and one text for each code, the texts that were
    replaced, and one escaped text for each code. *)
Definition kept (ds : list directive) : nat :=
  let codes := length (nodup N.eq_dec (map fst (entries ds))) in
  let default := if default_of None ds then 1 else 0 in
  (2 + default + codes) + replacing (entries ds) + defaults_lost ds + (2 + default + codes) + codes.

(** What is needed at most.  The buffers of 2048 bytes are freed when the file was loaded, before
    the table is rebuilt and texts are escaped. *)
Inductive generating (locale : str) (denied_size : nat) : table_file -> nat -> Prop :=
| gen_absent : generating locale denied_size Absent 0
| gen_locked message : generating locale denied_size (Locked message) (64 + 16 * new_size (Z.of_nat (table_capacity denied_size)))
| gen_readable contents ds : file_says locale contents ds ->
    generating locale denied_size (Readable contents) (loading_size contents ds + (64 + 16 * S (N.to_nat (largest ds)) + 3 * text_bytes ds - 2048)).

(** Where and for how much a request may be refused. *)
Definition wants (s : store_t) (locale : str) (found : table_file) (denied : nat) (h : heap) (k : N) : Prop :=
  exists more need, h = s_heap s ++ more /\ generating locale denied found need /\ heap_size more + N.to_nat k <= need.

(** After a table was printed. *)
Definition remains (s : store_t) (locale : str) (found : table_file) (s' : store_t) : Prop :=
  (forall b, b < length (s_heap s) -> s_words s' b = s_words s b) /\
  exists contents ds more, found = Readable contents /\ file_says locale contents ds /\ s_heap s' = s_heap s ++ more /\ live more = kept ds.

(** Everything is printed on standard output, in pieces that make up the text. *)
Definition prints (said : list (stream * str)) (text : str) : Prop := Forall (fun piece => fst piece = Stdout) said /\ concat (map snd said) = text.
