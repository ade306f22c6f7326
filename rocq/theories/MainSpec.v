(** * What holds of whole runs of the program *)

From Verif Require Import Base ParseTable ParseTableSpec Table Filter Spoof Filelist Prog File FileSpec ConfigParse ConfigLoad Options OptionsSpec Startup Main.

Local Open Scope nat_scope.

(** Programs all of whose calls, whatever the answers, satisfy [P]. *)
Fixpoint only (P : call -> Prop) {A} (p : prog A) : Prop :=
  match p with
  | Ret _ | Stop _ => True
  | Call c k => P c /\ forall r, only P (k r)
  end.

Definition is_print (c : call) : Prop := match c with Print _ _ => True | _ => False end.
Definition no_rename (c : call) : Prop := match c with Rename _ _ => False | _ => True end.

(** Reading and printing only: nothing on disk changes. *)
Definition reads_or_prints (c : call) : Prop :=
  match c with Print _ _ | ReadStream _ | Lstat _ => True | _ => False end.

(** POSIXLY_CORRECT *)
Definition is_set (v : option str) : bool := match v with Some _ => true | None => false end.
Definition posix_env (s : system) : bool := is_set (e_getenv (m_env s) (bs "POSIXLY_CORRECT")).

(** The sequence name in force: -s, else DETOX_SEQUENCE. *)
Definition wanted_sequence (s : system) (ws : list wish) (name : option str) : Prop :=
  exists n, last_of sequence_named ws n /\
    name = match n with Some n => Some n | None => e_getenv (m_env s) (bs "DETOX_SEQUENCE") end.

(** What is found at the path of a table. *)
Inductive table_found (s : system) (path : str) : option table -> Prop :=
| tf_missing : e_files (m_env s) path = NoFile -> table_found s path None
| tf_unreadable t : e_files (m_env s) path = Unreadable -> parse_table (m_locale s) [] = Ok t -> table_found s path t
| tf_read bytes t : e_files (m_env s) path = Contents bytes -> parse_table (m_locale s) bytes = Ok t -> table_found s path t.

(** Sequence [s0] with its tables loaded is [s1]. *)
Definition loaded_with_tables (s : system) (s0 s1 : sequence_t) : Prop :=
  exists find, (forall path, table_found s path (find path)) /\ sequence_review (e_datadir (m_env s)) find s0 = Ok s1.

(** [started s argv ws fs o c]: the command line makes sense and asks for work, the
    configuration [c] was loaded, a sequence was found and its tables were loaded; [o] are
    the options with which work begins. *)
Record started (s : system) (argv : list str) (ws : list wish) (fs : list str) (o : options_t) (c : config_t) : Prop := {
  st_asks : asks (posix_env s) (tl argv) ws fs;
  st_stays : Forall (fun w => ~ parting w) ws;
  st_works : ~ In List_sequences ws;
  st_dry_run : o_dry_run o = true <-> In Dry_run ws;
  st_recurse : o_recurse o = true <-> In Recursive ws;
  st_special : o_special o = true <-> In Special ws;
  st_verbose : o_verbose o = N.of_nat (length (filter is_verbose ws));
  st_inline : o_is_inline_mode o = true <-> (exists a r, argv = a :: r /\ called a (bs "inline-detox")) \/ In Inline_mode ws;
  st_files : fs = [] -> o_is_inline_mode o = true;
  st_platform : o_platform o = m_platform s;
  st_config : exists file printed, last_of config_named ws file /\ config_file_load (m_env s) file = (printed, Ok c);
  st_sequence : exists name s0 s1, wanted_sequence s ws name /\
      sequence_choose_default (cf_sequences c) name = Some s0 /\
      loaded_with_tables s s0 s1 /\ o_sequence_to_use o = Some s1;
  st_ignore : usable_list (o_files_to_ignore o) /\ cursor (o_files_to_ignore o) = 0 /\
      items (o_files_to_ignore o) = match cf_ignore c with Some l => l | None => [] end
}.

(** [prelude s ws c said]: what a program that gets to work has said by then: the messages
    about the configuration [c] and about the tables of the sequence (see C82). *)
Definition prelude (s : system) (ws : list wish) (c : config_t) (said : list (stream * str)) : Prop :=
  exists file name s0 s1 said1 said2,
    last_of config_named ws file /\ config_file_load_says (m_env s) file = (said1, Ok c) /\
    wanted_sequence s ws name /\ sequence_choose_default (cf_sequences c) name = Some s0 /\
    sequence_review_says (e_datadir (m_env s)) (table_at_says s) s0 = (said2, Ok s1) /\ said = said1 ++ said2.

(** ** What -L shows *)

(** A line of the short list. *)
Definition short_entry (mark : string) (s : sequence_t) : str := [tab] ++ s_name s ++ bs mark ++ [eol].

(** The shortest decimal notation of a number; negative ones with a sign. *)
Definition shortest (v : N) (s : str) : Prop := digits 10 s v /\ (s = bs "0" \/ exists c r, s = c :: r /\ c <> "0"%byte).
Definition signed_decimal (z : Z) (s : str) : Prop :=
  (0 <= z)%Z /\ shortest (Z.to_N z) s \/ (z < 0)%Z /\ exists d, s = "-"%byte :: d /\ shortest (Z.to_N (- z)) d.

(** A line, indented. *)
Definition indented (depth : nat) (text : str) : str := repeat tab depth ++ text ++ [eol].

(** What is said of the method of a filter, of its parameters and of its table. *)
Definition method_name (c : cleaner) : option str :=
  match c with
  | F_uncgi => Some (bs "uncgi")
  | F_safe => Some (bs "safe")
  | F_wipeup => Some (bs "wipeup")
  | F_iso8859_1 => Some (bs "iso8859_1")
  | F_utf_8 => Some (bs "utf_8")
  | F_max_length => Some (bs "max length")
  | F_lower => Some (bs "lower")
  | F_unknown _ => None
  end.

Inductive parameter_of (f : filter_t) : str -> Prop :=
| pm_trailing : f_cleaner f = F_wipeup -> f_remove_trailing f = true -> parameter_of f (bs "remove trailing: yes")
| pm_no_trailing : f_cleaner f = F_wipeup -> f_remove_trailing f = false -> parameter_of f (bs "remove trailing: no")
| pm_length z k s :   (* the lower 32 bits of the length, as an int *)
    f_cleaner f = F_max_length -> (- 2 ^ 31 <= z < 2 ^ 31)%Z -> Z.of_N (f_max_length f) = (z + k * 2 ^ 32)%Z ->
    signed_decimal z s -> parameter_of f (bs "length: " ++ s).

Inductive table_of (f : filter_t) : str -> Prop :=
| tb_builtin b : f_builtin f = Some b -> table_of f (bs "builtin table: " ++ b)
| tb_file n : f_builtin f = None -> f_filename f = Some n -> table_of f (bs "translation table: " ++ n).

(** What there is to be said of a kind, or nothing. *)
Definition if_any (depth : nat) (say : str -> Prop) (out : str) : Prop :=
  (exists t, say t /\ out = indented depth t) \/ (forall t, ~ say t) /\ out = [].

Definition described (f : filter_t) (out : str) : Prop :=
  exists a b c, out = a ++ b ++ c /\
    if_any 1 (fun t => exists m, method_name (f_cleaner f) = Some m /\ t = bs "cleaner: " ++ m) a /\
    if_any 2 (parameter_of f) b /\ if_any 2 (table_of f) c.

(** A paragraph of the long list. *)
Definition long_entry (describe : filter_t -> str) (mark : string) (s : sequence_t) : str :=
  bs "sequence name: " ++ s_name s ++ bs mark ++ [eol] ++
  [tab] ++ bs "source file: " ++ match s_source s with Some f => f | None => [] end ++ [eol] ++
  flat_map describe (s_filters s).

(** Paragraphs with empty lines between them. *)
Fixpoint paragraphs (l : list str) : str :=
  match l with
  | [] => []
  | [p] => p
  | p :: rest => p ++ [eol] ++ paragraphs rest
  end.

(** The entries, exactly one of them marked: the one that [name] chooses.  If [name]
    chooses none, none is marked. *)
Definition marked (entry : string -> sequence_t -> str) (seqs : list sequence_t) (name : option str) (entries : list str) : Prop :=
  (sequence_choose_default seqs name = None /\ entries = map (entry ""%string) seqs) \/
  (exists before s after, seqs = before ++ s :: after /\ sequence_choose_default seqs name = Some s /\
     Forall (fun x => s_name x <> s_name s) before /\
     entries = map (entry ""%string) before ++ entry " (*)"%string s :: map (entry ""%string) after).

Definition ignore_section (l : option (list str)) : str :=
  match l with
  | None | Some [] => []
  | Some l => [eol] ++ bs "files to ignore:" ++ [eol] ++ flat_map (fun f => [tab] ++ f ++ [eol]) l
  end.
