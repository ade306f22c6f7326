(** * What a chain of two filters with tables is supposed to do (man detox.tbl(5), detoxrc(5)) *)

From Verif Require Import Base Table CleanSpec Utf8Spec Filter.

Local Open Scope N_scope.

(** The code under which a filter looks a byte up; iso8859_1 does not look up ASCII. *)
Definition code_of (pf : platform) (k : cleaner) (c : byte) : option N :=
  match k with
  | F_safe => Some (char_code (p_schar pf) c)
  | F_iso8859_1 => if bN c <? 128 then None else Some (bN c)
  | _ => None
  end.

Definition bytewise (k : cleaner) : Prop := k = F_safe \/ k = F_iso8859_1.

Definition entry_for (pf : platform) (k : cleaner) (t : table) (c : byte) : option str :=
  match code_of pf k c with Some n => table_get t n | None => None end.

(** What a filter with a table makes of a byte. *)
Definition becomes (pf : platform) (k : cleaner) (t : table) (c : byte) : str :=
  match code_of pf k c with Some n => entry_or_default t n c | None => [c] end.

Definition text_becomes (pf : platform) (k : cleaner) (t : table) (s : str) : str := flat_map (becomes pf k t) s.

(** The filter [f] of kind [k] has table [t]. *)
Definition filter_with (f : filter_t) (k : cleaner) (t : table) : Prop := f_cleaner f = k /\ f_table f = Some t.

(** [t] has the entries of [t1] and, for other codes, those of [t2], and the default of [t2]. *)
Definition joined (t1 t2 t : table) : Prop :=
  (forall n, table_get t n = match table_get t1 n with Some x => Some x | None => table_get t2 n end) /\
  t_default t = t_default t2.

(** A character as it stands in a name. *)
Definition character (x : str * N) : Prop := sequence (fst x) (snd x) /\ 0 < snd x <= 0x10FFFF.
