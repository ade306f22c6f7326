(** * Specification: tables and lists of files in memory *)

From Verif Require Import Base Stdio Table TableSpec Filelist Prog Warnings Mem MemSpec Words.

Local Open Scope nat_scope.

(** ** What is in memory *)

(** The value of a member: a number, an address (None is NULL), or whatever. *)
Inductive value := Num (z : Z) | Adr (p : option ptr) | Any.

Definition stands_for (w : option word) (v : value) : Prop :=
  match v with
  | Num z => w = Some (Int z) \/ w = Some Zero /\ z = 0%Z
  | Adr p => w = Some Zero /\ p = None \/ exists q, w = Some (Ptr q) /\ p = Some q
  | Any => True
  end.

(** [p] points to a block that holds these values, and is not smaller than them. *)
Definition content (s : store_t) (p : ptr) (vs : list value) : Prop :=
  p_off p = 0 /\ Forall2 stands_for (s_words s (p_block p)) vs /\
  exists cells, nth_error (s_heap s) (p_block p) = Some (Some cells) /\ length vs <= length cells.

(** [q] is NULL, or the address of a block with the string. *)
Definition string_in (h : heap) (q : option ptr) (x : option str) : Prop :=
  match q, x with
  | Some q, Some x => p_off q = 0 /\ cstr_at h q x
  | None, None => True
  | _, _ => False
  end.

Definition block_list (l : list (option ptr)) : list nat :=
  flat_map (fun q => match q with Some q => [p_block q] | None => [] end) l.

(** ** Tables *)

(** What the table's own statistics say. *)
Record counters := mkCounters { n_hits : Z; n_misses : Z; n_seeks : Z }.

Definition table_values (t : table) (c : counters) (default rows : option ptr) : list value :=
  [Num (Z.of_nat (length (t_rows t))); Num (Z.of_nat (t_used t)); Num (Z.of_nat (t_maxdata t)); Adr default; Adr rows;
   Num (n_hits c); Num (n_misses c); Num (Z.of_nat (t_overwrites t)); Num (n_seeks c);
   Num (if t_hash t then 1 else 0); Num (if t_builtin t then 1 else 0); Num (int_of (t_maxkey t))].

Fixpoint row_values (rows : list row) (ds : list (option ptr)) : list value :=
  match rows, ds with
  | r :: rows, d :: ds => Num (Z.of_N (r_key r)) :: Adr d :: row_values rows ds
  | _, _ => []
  end.

(** The numbers are within the range of their types; rows in use have a text, and those only;
    no text is longer than the table says. *)
Definition in_range (t : table) : Prop :=
  0 < length (t_rows t) /\ (Z.of_nat (length (t_rows t)) <= int_max)%Z /\ t_used t <= length (t_rows t) /\
  (Z.of_nat (t_maxdata t) <= int_max)%Z /\ (t_maxkey t < 2 ^ 32)%N /\
  Forall (fun r => (r_key r < 2 ^ 32)%N /\ (r_key r = 0%N <-> r_data r = None)) (t_rows t) /\
  (forall r d, In r (t_rows t) -> r_data r = Some d -> length d <= t_maxdata t).

Definition sound (c : counters) : Prop := (n_hits c < int_max /\ n_misses c < int_max /\ n_seeks c < int_max)%Z.

(** [p] points to the table [t]; it consists of the blocks [own]. *)
Definition table_at (s : store_t) (p : ptr) (t : table) (c : counters) (own : list nat) : Prop :=
  exists rows ds default,
    content s p (table_values t c default (Some rows)) /\
    content s rows (row_values (t_rows t) ds) /\
    Forall2 (fun d r => string_in (s_heap s) d (r_data r)) ds (t_rows t) /\
    string_in (s_heap s) default (t_default t) /\
    own = p_block p :: p_block rows :: block_list (default :: ds) /\ NoDup own /\ in_range t.

(** The same of a table that may have texts in common with others, such as a static one. *)
Definition text_in (h : heap) (q : option ptr) (x : option str) : Prop :=
  match q, x with
  | Some q, Some x => cstr_at h q x
  | None, None => True
  | _, _ => False
  end.

Definition table_seen (s : store_t) (p : ptr) (t : table) (c : counters) (own : list nat) : Prop :=
  exists rows ds default,
    content s p (table_values t c default (Some rows)) /\
    content s rows (row_values (t_rows t) ds) /\
    Forall2 (fun d r => text_in (s_heap s) d (r_data r)) ds (t_rows t) /\
    text_in (s_heap s) default (t_default t) /\
    own = p_block p :: p_block rows :: block_list (default :: ds) /\ in_range t.

(** The statistics after a lookup. *)
Definition counted (t : table) (key : N) (c : counters) : counters :=
  if (key =? 0)%N then c
  else
    let hit c := mkCounters (n_hits c + 1) (n_misses c) (n_seeks c) in
    let missed c := mkCounters (n_hits c) (n_misses c + 1) (n_seeks c) in
    let sought c := mkCounters (n_hits c) (n_misses c) (n_seeks c + 1) in
    let there := existsb (fun r => (r_key r =? key)%N) (t_rows t) in
    if (t_hash t && (r_key (nth (N.to_nat (key mod N.of_nat (length (t_rows t)))) (t_rows t) (mkRow 0 None)) =? key)%N)%bool then hit c
    else if there then hit (sought c) else missed (sought c).

(** ** Outcomes *)

(** There is a result, with [Q]; or malloc has refused a request with [R]. *)
Inductive ends {al : allocator} {A} (R : heap -> N -> Prop) (Q : A -> store_t -> Prop) : talk (A * store_t) -> Prop :=
| ends_done a s : Q a s -> ends R Q (done (a, s))
| ends_refused h n message : refusal_of h n = Some message -> R h n ->
    ends R Q ([(Stderr, no_memory_left message)], Exit EXIT_FAILURE).

(** The words of all blocks but these are as they were. *)
Definition same_but (own : list nat) (s s' : store_t) : Prop := forall b, ~ In b own -> s_words s' b = s_words s b.

(** The blocks [own] are gone. *)
Definition without (own : list nat) (h h' : heap) : Prop :=
  length h' = length h /\ forall b, nth_error h' b = if in_dec Nat.eq_dec b own then Some None else nth_error h b.

(** A block that was allocated and not written to. *)
Definition blank (n : N) : option (list cell) := Some (repeat None (N.to_nat n)).

Definition string_block (s : str) : option (list cell) := Some (map Some s ++ [Some NUL]).

(** The bytes of the texts. *)
Definition text_room (x : option str) : nat := match x with Some x => length x + 1 | None => 0 end.
Definition texts_room (rows : list row) : nat := list_sum (map (fun r => text_room (r_data r)) rows).

(** What table_resize allocates at most. *)
Definition copy_room (t : table) (n : Z) : nat := 64 + 16 * new_size n + text_room (t_default t) + texts_room (t_rows t).
