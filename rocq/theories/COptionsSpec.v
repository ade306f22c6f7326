(** * Specification: the options in memory *)

From Verif Require Import Base Stdio Filelist FileSpec Prog Warnings File Mem MemSpec Words WordsSpec FilesSpec LinkedSpec CWorkSpec.

Local Open Scope nat_scope.

(** The members of [options_t] *)
Definition truth (b : bool) : value := Num (if b then 1 else 0).

Definition option_values (o : options_t) (sequence ignore name check files : option ptr) : list value :=
  [truth (o_dry_run o); truth (o_is_inline_bin o); truth (o_is_inline_mode o); truth (o_list_sequences o); truth (o_recurse o); truth (o_special o);
   Num (Z.of_N (o_verbose o)); Adr sequence; Adr ignore; Adr name; Adr check; Adr files].

(** [p] points to the options [o], with no sequence and no files to ignore; the list of the
    files, which is at its beginning, and the structure itself are the blocks [own]. *)
Definition options_at (s : store_t) (p : ptr) (o : options_t) (own : list nat) : Prop :=
  exists name check files fown,
    content s p (option_values o None None name check files) /\
    text_in (s_heap s) name (o_sequence_name o) /\ text_in (s_heap s) check (o_check_config_file o) /\
    listed s files (o_files o) fown /\ cursor (o_files o) = 0 /\ own = p_block p :: fown /\ NoDup own.

(** The command line is not too long. *)
Definition written (argv : list str) : nat := list_sum (map (fun a => S (length a)) argv).
Definition modest (argv : list str) : Prop := (Z.of_nat (written argv + 32) <= int_max)%Z.

(** Memory that suffices *)
Definition options_room (argv : list str) : nat := 224 + written argv * (10 * (written argv + 32)).

(** The options are in new memory, all else is as it was. *)
Definition gives_options (s : store_t) (argv : list str) (o : options_t) (p : ptr) (s' : store_t) : Prop :=
  (forall b, b < length (s_heap s) -> nth_error (s_heap s') b = nth_error (s_heap s) b /\ s_words s' b = s_words s b) /\
  length (s_heap s) <= length (s_heap s') /\ heap_size (s_heap s') <= heap_size (s_heap s) + options_room argv /\
  exists own, options_at s' p o own /\ forall b, In b own -> length (s_heap s) <= b.
