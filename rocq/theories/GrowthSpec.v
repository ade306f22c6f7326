(** * How long cleaned names can be *)

From Verif Require Import Base Table Filter.

Local Open Scope nat_scope.

(** No text of the table is longer than [k]. *)
Definition texts_within (k : nat) (t : table) : Prop :=
  (forall key d, table_get t key = Some d -> length d <= k) /\ (forall d, t_default t = Some d -> length d <= k).

(** The filter makes names at most [k] times as long; 13 is the length of "_hidden_null_". *)
Definition grows_by (f : filter_t) (k : nat) : Prop :=
  match f_cleaner f with
  | F_lower | F_max_length | F_uncgi | F_wipeup => 1 <= k
  | F_iso8859_1 | F_safe => 1 <= k /\ exists t, f_table f = Some t /\ texts_within k t
  | F_utf_8 => 13 <= k /\ exists t, f_table f = Some t /\ texts_within k t
  | F_unknown _ => False
  end.

(** How much longer the shipped sequences can make a name *)
Definition shipped_growth : list (str * nat) :=
  [(bs "default", 4); (bs "iso8859_1", 4); (bs "iso8859_1-legacy", 5); (bs "utf_8", 4); (bs "uncgi", 4); (bs "lower", 4);
   (bs "iso8859_1-only", 2); (bs "cp1252-only", 3); (bs "utf_8-only", 1); (bs "uncgi-only", 1); (bs "lower-only", 1)].
