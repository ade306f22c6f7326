(** * What sequences of filters are supposed to do *)

From Verif Require Import Base Table CleanString CleanSpec Utf8Spec Filter Spoof.

(** [applied pf fs s o]: feeding [s] through the filters [fs], one after the other,
    gives [o]. *)
Inductive applied (pf : platform) : list filter_t -> str -> str -> Prop :=
| applied_nil s : applied pf [] s s
| applied_cons f fs s m o :
    filter_run pf f (Some s) = Ok (Some m) -> applied pf fs m o -> applied pf (f :: fs) s o.

(** [shortened limit s o]: what max_length makes of a name. *)
Definition shortened (limit : N) (s o : str) : Prop :=
  ((strlen s <= limit)%N /\ o = s) \/
  ((limit < strlen s)%N /\ exists ext, kept_extension s ext /\
     (((limit <= strlen ext)%N /\ o = s) \/
      ((strlen ext < limit)%N /\ strlen o = limit /\ exists front, o = front ++ ext /\ front = firstn (length front) s))).

(** [cleaned pf f s o]: what one filter is for, by its kind and its own options and table. *)
Definition cleaned (pf : platform) (f : filter_t) (s o : str) : Prop :=
  match f_cleaner f, f_table f with
  | F_lower, _ => p_ctype pf = c_locale -> o = map lower_spec s
  | F_uncgi, _ => exists x, cgi_reads s x /\ o = cstr x
  | F_wipeup, _ => wiped (f_remove_trailing f) s o
  | F_max_length, _ => shortened (if (f_max_length f =? 0)%N then 256 else f_max_length f) s o
  | F_safe, Some t => o = cstr (flat_map (fun c => entry_or_default t (char_code (p_schar pf) c) c) s)
  | F_iso8859_1, Some t => o = cstr (flat_map (fun c => if (bN c <? 128)%N then [c] else entry_or_default t (bN c) c) s)
  | F_utf_8, Some t => exists x, utf8_read (table_text (table_get t) (t_default t)) s x /\ o = cstr x
  | _, _ => False
  end.

(** A portable name: no difficult character, no two adjacent separators, no leading
    '-', '_' or '#'. *)
Definition portable (o : str) : Prop :=
  Forall (fun c => ~ difficult c) o /\ no_adjacent (separator true) o /\ ~ starts_with leading_junk o.

(** [shipped name seq]: [seq] is the sequence [name] of the built-in configuration
    with its tables attached, on some system. *)
Definition shipped (name : str) (seq : sequence_t) : Prop :=
  exists datadir parse s0,
    sequence_choose_default (cf_sequences spoof_config_file) (Some name) = Some s0 /\
    sequence_review datadir parse s0 = Ok seq.

Definition slash : byte := "/"%byte.

(** A table whose texts contain no '/'. *)
Definition slash_free (t : table) : Prop :=
  (forall k d, table_get t k = Some d -> ~ In slash d) /\
  (forall d, t_default t = Some d -> ~ In slash d).

(** Filters that do not introduce a '/'. *)
Definition adds_no_slash (f : filter_t) : Prop :=
  match f_cleaner f with
  | F_lower | F_max_length | F_wipeup => True
  | F_iso8859_1 | F_safe | F_utf_8 => exists t, f_table f = Some t /\ slash_free t
  | F_uncgi | F_unknown _ => False
  end.

(** A filter after its table has been loaded: nothing but the table is different. *)
Definition loaded (datadir : option str) (parse : str -> option table) (f f' : filter_t) : Prop :=
  exists t, filter_load_table datadir parse f = Ok t /\
    f_cleaner f' = f_cleaner f /\ f_filename f' = f_filename f /\ f_builtin f' = f_builtin f /\
    f_remove_trailing f' = f_remove_trailing f /\ f_max_length f' = f_max_length f /\
    f_table f' = match t with Some _ => t | None => f_table f end.
