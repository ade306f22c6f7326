(** * What check-table leaves allocated *)

From Verif Require Import Base Table TableSpec ParseTable ParseTableSpec TableFileSpec CheckTable CheckSpec Mem MemSpec Words WordsSpec TablesSpec LoadSpec.

Local Open Scope nat_scope.

(** The number of blocks lost.  The table of a file that cannot be opened is not freed; nor
    are the texts that others replace. *)
Inductive blocks_lost (o : check_options) : table_file -> table_file -> nat -> Prop :=
| lost_absent second : blocks_lost o Absent second 0
| lost_locked message second : blocks_lost o (Locked message) second 2
| lost_given_up contents before c x after second :
    file_says [] contents (before ++ Entry c x :: after) ->
    ~ In 0%N (map fst (entries before)) -> length (entries before) <= room contents ->
    (c = 0%N \/ length (entries before) = room contents) ->
    blocks_lost o (Readable contents) second (replacing (entries before) + defaults_lost before)
| lost_accepted contents ds second :
    file_says [] contents ds -> ~ In 0%N (map fst (entries ds)) -> length (entries ds) <= room contents ->
    (k_builtin o = true -> forall message, second <> Locked message) ->
    blocks_lost o (Readable contents) second (replacing (entries ds) + defaults_lost ds)
(** The table that is to be searched is lost as well. *)
| lost_copied contents ds message :
    file_says [] contents ds -> ~ In 0%N (map fst (entries ds)) -> length (entries ds) <= room contents ->
    k_builtin o = true ->
    blocks_lost o (Readable contents) (Locked message)
      (replacing (entries ds) + defaults_lost ds +
       (2 + (if default_of None ds then 1 else 0) + length (nodup N.eq_dec (map fst (entries ds))))).

(** What is needed at most.  With -b a copy of the table is made, with fewer rows or more. *)
Inductive bytes_needed (o : check_options) (denied_size : nat) : table_file -> nat -> Prop :=
| need_absent : bytes_needed o denied_size Absent 0
| need_locked message : bytes_needed o denied_size (Locked message) (64 + 16 * new_size (Z.of_nat (table_capacity denied_size)))
| need_readable contents ds : file_says [] contents ds ->
    bytes_needed o denied_size (Readable contents)
      (loading_size contents ds + if k_builtin o then 64 + 16 * (256 * (length (entries ds) / 256 + 1)) + text_bytes ds else 0).

(** Files whose sizes are within the range of int. *)
Definition sizeable (file : table_file) : Prop :=
  match file with Readable contents => (Z.of_nat (length contents) < Words.int_max)%Z | _ => True end.

Definition leftover (s : store_t) (o : check_options) (first second : table_file) (s' : store_t) : Prop :=
  (forall b, b < length (s_heap s) -> s_words s' b = s_words s b) /\
  exists more n, s_heap s' = s_heap s ++ more /\ live more = n /\ blocks_lost o first second n.

(** Where and for how much a request may be refused. *)
Definition needs (s : store_t) (o : check_options) (first : table_file) (denied : nat) (h : heap) (k : N) : Prop :=
  exists more need, h = s_heap s ++ more /\ bytes_needed o denied first need /\ heap_size more + N.to_nat k <= need.

(** The file that is checked, with the options given. *)
Definition asked (posix : bool) (args : list str) (o : check_options) (file : str) : Prop :=
  exists ls fs, arguments posix args ls (file :: fs) /\ Forall harmless ls /\ wished ls o.
