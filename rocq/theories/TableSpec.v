(** * What a translation table is supposed to be

    A table built through the API is a bounded store: of the requests it is sent,
    those with key 0 and those beyond its size are refused, and a lookup gives the
    text of the last accepted request for the key. *)

From Verif Require Import Base Table BuiltinTables.

(** The requests of a history that a store of [size] entries accepts. *)
Definition accepted (size : nat) (history : list (N * str)) : list (N * str) :=
  firstn size (filter (fun kd => negb (fst kd =? 0)%N) history).

(** The text of the last entry for [k]. *)
Fixpoint last_for (k : N) (l : list (N * str)) : option str :=
  match l with
  | [] => None
  | (k', d) :: rest =>
    match last_for k rest with
    | Some d' => Some d'
    | None => if (k =? k')%N then Some d else None
    end
  end.

(** Sending a history of requests to a table. *)
Fixpoint send (t : table) (history : list (N * str)) : table :=
  match history with
  | [] => t
  | (k, d) :: rest => send (fst (table_put t k d)) rest
  end.

(** A new table of [rows] rows (0 or less: the default size), hashed or not. *)
Definition new_table (rows : Z) (hashed : bool) : table :=
  table_resize (table_init 1) rows hashed.

Definition new_size (rows : Z) : nat :=
  if (rows <=? 0)%Z then 500%nat else Z.to_nat rows.

(** Everything the program can build: new tables, stores, setting the default
    translation, rebuilding, and the built-in tables. *)
Inductive built : table -> Prop :=
| built_init n : built (table_init n)
| built_put t k d : built t -> built (fst (table_put t k d))
| built_default t d : built t ->
    built (mkTable (t_rows t) (t_used t) (t_maxdata t) d (t_overwrites t)
                   (t_hash t) (t_builtin t) (t_maxkey t))
| built_resize t n h : built t -> built (table_resize t n h)
| built_builtin t :
    In t [load_builtin_safe_table; load_builtin_iso8859_1_table;
          load_builtin_unicode_table; load_builtin_cp1252_table] -> built t.

(** The keys that answer a lookup. *)
Definition keys_of (t : table) (ks : list N) : Prop :=
  NoDup ks /\ forall k, In k ks <-> table_get t k <> None.
