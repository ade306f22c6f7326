(** * Model of src/table.c (translation tables) *)

From Verif Require Import Base.

(** src/detox_struct.h:34-37 [table_row_t]. [r_data = None] is a NULL pointer. *)
Record row := mkRow { r_key : N; r_data : option str }.

Definition empty_row : row := mkRow 0 None.

(** src/detox_struct.h:39-57 [table_t].
    Simplified: [length] is the length of [t_rows] (every table in the code base
    is built that way, src/table.c:30-40 and src/builtin_table.c); the counters
    hits, misses and seeks, which only the debugging dump reads, are left out;
    the int fields do not overflow. *)
Record table := mkTable {
  t_rows : list row;
  t_used : nat;
  t_maxdata : nat;
  t_default : option str;
  t_overwrites : nat;
  t_hash : bool;
  t_builtin : bool;
  t_maxkey : N
}.

Definition t_length (t : table) : nat := length (t_rows t).

(** src/table.c:21-44 [table_init].  The argument is an int. *)
Definition table_init (max_rows : Z) : table :=
  let n := if (max_rows <=? 0)%Z then 500%nat else Z.to_nat max_rows in
  mkTable (repeat empty_row n) 0 0 None 0 true false 0.

(** src/table.c:100-103 [table_hash] *)
Definition table_hash (table_length : nat) (key : N) : nat :=
  N.to_nat (key mod N.of_nat table_length).

(** Row access; the index is always below the length in the code. *)
Definition row_at (rows : list row) (i : nat) : row := nth i rows empty_row.

(** The linear search of src/table.c:141-146 and 205-210: the first index whose
    row satisfies [p]. *)
Fixpoint find_row (p : row -> bool) (rows : list row) (i : nat) : option nat :=
  match rows with
  | [] => None
  | r :: rest => if p r then Some i else find_row p rest (S i)
  end.

Fixpoint set_row (rows : list row) (i : nat) (r : row) : list row :=
  match rows, i with
  | [], _ => []
  | _ :: rest, O => r :: rest
  | x :: rest, S j => x :: set_row rest j r
  end.

(** [key == 0 || key == k] of src/table.c:135 and 142 *)
Definition free_or (key : N) (r : row) : bool :=
  (r_key r =? 0)%N || (r_key r =? key)%N.

(** src/table.c:132-151: the row to use, or None for "return -1" *)
Definition put_offset (t : table) (key : N) : option nat :=
  let seek := table_hash (t_length t) key in
  if t_hash t && free_or key (row_at (t_rows t) seek) then Some seek
  else find_row (free_or key) (t_rows t) 0.

(** src/table.c:116-170 [table_put].  The result is the new table and the
    returned offset, None standing for -1. *)
Definition table_put (t : table) (key : N) (data : str) : table * option nat :=
  if (key =? 0)%N then (t, None)
  else if (t_length t =? t_used t)%nat then (t, None)
  else match put_offset t key with
  | None => (t, None)
  | Some off =>
    let ow := if (r_key (row_at (t_rows t) off) =? key)%N
              then S (t_overwrites t) else t_overwrites t in
    (mkTable
       (set_row (t_rows t) off (mkRow key (Some data)))
       (S (t_used t))
       (if (t_maxdata t <? length data)%nat then length data else t_maxdata t)
       (t_default t) ow (t_hash t) (t_builtin t)
       (if (t_maxkey t <? key)%N then key else t_maxkey t),
     Some off)
  end.

(** src/table.c:194-215 *)
Definition get_offset (t : table) (key : N) : option nat :=
  let seek := table_hash (t_length t) key in
  if t_hash t && (r_key (row_at (t_rows t) seek) =? key)%N then Some seek
  else find_row (fun r => (r_key r =? key)%N) (t_rows t) 0.

(** src/table.c:182-221 [table_get]; None is the NULL pointer. *)
Definition table_get (t : table) (key : N) : option str :=
  if (key =? 0)%N then None
  else match get_offset t key with
  | None => None
  | Some off => r_data (row_at (t_rows t) off)
  end.

(** src/table.c:69-73: re-insertion loop of [table_resize] *)
Fixpoint put_rows (ret : table) (rows : list row) : table :=
  match rows with
  | [] => ret
  | r :: rest =>
    let ret' := match r_data r with
                | Some d => if (0 <? r_key r)%N then fst (table_put ret (r_key r) d) else ret
                | None => ret
                end in
    put_rows ret' rest
  end.

(** src/table.c:46-76 [table_resize] for a non-NULL table (table_init never
    returns NULL, src/wrapped.c). *)
Definition table_resize (t : table) (rows : Z) (use_hash : bool) : table :=
  let r0 := table_init rows in
  let r1 := mkTable (t_rows r0) (t_used r0) (t_maxdata r0) (t_default t)
                    (t_overwrites t) use_hash (t_builtin r0) (t_maxkey r0) in
  put_rows r1 (t_rows t).
