(** * What a configuration file is supposed to mean *)

From Verif Require Import Base Stdio ParseTableSpec Filter Spoof ConfigLex.

Local Open Scope nat_scope.

(** ** Scanning

    The rules of src/config_file_lex.l as regular expressions, and what flex makes of a
    list of rules. *)

Inductive regex :=
| Class (p : byte -> Prop)
| Letters (k : str)
| Seq (a b : regex)
| Star (a : regex).

Inductive matches : regex -> str -> Prop :=
| m_class (p : byte -> Prop) c : p c -> matches (Class p) [c]
| m_letters k s : same_text s k -> matches (Letters k) s
| m_seq a b s t : matches a s -> matches b t -> matches (Seq a b) (s ++ t)
| m_star_nil a : matches (Star a) []
| m_star_cons a s t : matches a s -> matches (Star a) t -> matches (Star a) (s ++ t).

Definition Plus (a : regex) : regex := Seq a (Star a).
Definition Char (c : byte) : regex := Class (fun x => x = c).

Definition letter (c : byte) : Prop := In c (bs "abcdefghijklmnopqrstuvwxyzABCDEFGHIJKLMNOPQRSTUVWXYZ").
Definition decimal (c : byte) : Prop := In c (bs "0123456789").
Definition wordchar (c : byte) : Prop := letter c \/ decimal c \/ c = "_"%byte.

(** src/config_file_lex.l:22-66 *)
Definition flex_rules : list (regex * rule) :=
  [ (Plus (Class (fun c => c = x09 \/ c = x20)), R_blank);
    (Seq (Char "#"%byte) (Star (Class (fun c => c <> newline))), R_comment);
    (Char newline, R_newline);
    (Letters (bs "builtin"), R_key K_builtin);
    (Letters (bs "filename"), R_key K_filename);
    (Letters (bs "ignore"), R_key K_ignore);
    (Letters (bs "iso8859_1"), R_key K_iso8859_1);
    (Letters (bs "length"), R_key K_length);
    (Letters (bs "lower"), R_key K_lower);
    (Letters (bs "max_length"), R_key K_max_length);
    (Letters (bs "remove_trailing"), R_key K_remove_trailing);
    (Letters (bs "safe"), R_key K_safe);
    (Letters (bs "sequence"), R_key K_sequence);
    (Letters (bs "uncgi"), R_key K_uncgi);
    (Letters (bs "utf_8"), R_key K_utf_8);
    (Letters (bs "wipeup"), R_key K_wipeup);
    (Char "{"%byte, R_open);
    (Char "}"%byte, R_close);
    (Seq (Char quote) (Seq (Star (Class (fun c => c <> quote /\ c <> newline)))
                           (Class (fun c => c = quote \/ c = newline))), R_qstring);
    (Seq (Class letter) (Star (Class wordchar)), R_id);
    (Plus (Class decimal), R_number);
    (Char ";"%byte, R_eol) ].

(** [munch input s rest r]: rule [r] is the first to match [s], the longest text at the
    beginning of the input that any rule matches. *)
Definition munch (input s rest : str) (r : rule) : Prop :=
  input = s ++ rest /\ s <> [] /\
  (exists before re after, flex_rules = before ++ (re, r) :: after /\ matches re s /\
     forall re' r', In (re', r') before -> ~ matches re' s) /\
  (forall s' rest' re' r', input = s' ++ rest' -> In (re', r') flex_rules -> matches re' s' -> length s' <= length s).

(** No rule matches. *)
Definition stray (input : str) : Prop :=
  forall s' rest' re' r', input = s' ++ rest' -> In (re', r') flex_rules -> s' <> [] -> ~ matches re' s'.

(** [emits r s printed t]: the effect of a rule. *)
Inductive emits : rule -> str -> str -> option token -> Prop :=
| emits_blank s : emits R_blank s [] None
| emits_comment s : emits R_comment s [] None
| emits_newline s : emits R_newline s [] None
| emits_key k s : emits (R_key k) s [] (Some (T_key k))
| emits_open s : emits R_open s [] (Some T_open)
| emits_close s : emits R_close s [] (Some T_close)
| emits_eol s : emits R_eol s [] (Some T_eol)
| emits_id s : emits R_id s [] (Some (T_id s))
| emits_number s v n : digits 10 s v -> as_int (Z.of_N v) n -> emits R_number s [] (Some (T_number n))
| emits_qstring s : nonul s -> emits R_qstring (quote :: s ++ [quote]) [] (Some (T_qstring s))
| emits_unterminated s :
    nonul s -> emits R_qstring (quote :: s ++ [newline]) unterminated (Some (T_qstring (s ++ [newline]))).

(** [scans input ts printed]: the tokens of a text. *)
Inductive scans : str -> list token -> str -> Prop :=
| scans_end : scans [] [] []
| scans_skip input s rest r printed ts more :
    munch input s rest r -> emits r s printed None -> scans rest ts more -> scans input ts (printed ++ more)
| scans_token input s rest r printed t ts more :
    munch input s rest r -> emits r s printed (Some t) -> scans rest ts more -> scans input (t :: ts) (printed ++ more)
| scans_stray c rest ts more : stray (c :: rest) -> scans rest ts more -> scans (c :: rest) ts more.

(** ** The grammar: src/config_file_yacc.y:73-173 *)

Inductive a_string : list token -> str -> Prop :=
| s_quoted s : a_string [T_qstring s] s
| s_id s : a_string [T_id s] s.

(** Filters: plain; with a table file; with a built-in table. *)
Definition plain (c : cleaner) : filter_t := mkFilter c None None false 0 None.
Definition with_file (c : cleaner) (n : str) : filter_t := mkFilter c (Some n) None false 0 None.
Definition with_builtin (c : cleaner) (n : str) : filter_t := mkFilter c None (Some n) false 0 None.

(** The int becomes a size_t. *)
Definition as_size (n : Z) : N := Z.to_N (n mod 2 ^ 64).

(** iso8859_1, utf_8, safe *)
Inductive table_method (k : keyword) (c : cleaner) : list token -> filter_t -> Prop :=
| t_plain : table_method k c [T_key k] (plain c)
| t_empty : table_method k c [T_key k; T_open; T_close] (plain c)
| t_file ts n : a_string ts n ->
    table_method k c ([T_key k; T_open; T_key K_filename] ++ ts ++ [T_eol; T_close]) (with_file c n)
| t_builtin ts n : a_string ts n ->
    table_method k c ([T_key k; T_open; T_key K_builtin] ++ ts ++ [T_eol; T_close]) (with_builtin c n).

Inductive method : list token -> filter_t -> Prop :=
| me_uncgi : method [T_key K_uncgi; T_eol] (plain F_uncgi)
| me_lower : method [T_key K_lower; T_eol] (plain F_lower)
| me_iso ts f : table_method K_iso8859_1 F_iso8859_1 ts f -> method (ts ++ [T_eol]) f
| me_utf ts f : table_method K_utf_8 F_utf_8 ts f -> method (ts ++ [T_eol]) f
| me_safe ts f : table_method K_safe F_safe ts f -> method (ts ++ [T_eol]) f
| me_wipeup : method [T_key K_wipeup; T_eol] (plain F_wipeup)
| me_wipeup_empty : method [T_key K_wipeup; T_open; T_close; T_eol] (plain F_wipeup)
| me_wipeup_trailing :
    method [T_key K_wipeup; T_open; T_key K_remove_trailing; T_eol; T_close; T_eol] (mkFilter F_wipeup None None true 0 None)
| me_length : method [T_key K_max_length; T_eol] (plain F_max_length)
| me_length_empty : method [T_key K_max_length; T_open; T_close; T_eol] (plain F_max_length)
| me_length_value n :
    method [T_key K_max_length; T_open; T_key K_length; T_number n; T_eol; T_close; T_eol]
      (mkFilter F_max_length None None false (as_size n) None).

Inductive methods : list token -> list filter_t -> Prop :=
| ms_one ts f : method ts f -> methods ts [f]
| ms_more ts fs ts' f : methods ts fs -> method ts' f -> methods (ts ++ ts') (fs ++ [f]).

Inductive ignores : list token -> list str -> Prop :=
| ig_one ts n : a_string ts n -> ignores (T_key K_filename :: ts ++ [T_eol]) [n]
| ig_more ts ns ts' n : ignores ts ns -> a_string ts' n -> ignores (ts ++ T_key K_filename :: ts' ++ [T_eol]) (ns ++ [n]).

(** What a rule of the file defines. *)
Inductive definition :=
| Sequence (name : str) (filters : list filter_t)
| Ignore (files : list str).

Inductive a_rule : list token -> definition -> Prop :=
| r_sequence tn n ts fs : a_string tn n -> methods ts fs ->
    a_rule (T_key K_sequence :: tn ++ T_open :: ts ++ [T_close; T_eol]) (Sequence n fs)
| r_ignore ts ns : ignores ts ns -> a_rule ([T_key K_ignore; T_open] ++ ts ++ [T_close; T_eol]) (Ignore ns).

Inductive config_text : list token -> list definition -> Prop :=
| c_empty : config_text [] []
| c_more ts ds ts' d : config_text ts ds -> a_rule ts' d -> config_text (ts ++ ts') (ds ++ [d]).

(** ** The configuration in force *)

(** Definitions together with the file they are from. *)
Definition located := (str * definition)%type.

Definition names (ds : list located) : list str :=
  flat_map (fun d => match snd d with Sequence n _ => [n] | Ignore _ => [] end) ds.

Definition ignored (ds : list located) : list str :=
  flat_map (fun d => match snd d with Sequence _ _ => [] | Ignore fs => fs end) ds.

(** The last definition of a name. *)
Fixpoint last_definition (n : str) (ds : list located) : option (list filter_t * str) :=
  match ds with
  | [] => None
  | (src, d) :: r =>
    match last_definition n r with
    | Some x => Some x
    | None => match d with Sequence m fs => if str_eqb m n then Some (fs, src) else None | Ignore _ => None end
    end
  end.

Definition str_dec : forall a b : str, {a = b} + {a <> b} := list_eq_dec Byte.byte_eq_dec.

(** The names in the order in which they first appear. *)
Definition first_names (l : list str) : list str := rev (nodup str_dec (rev l)).

(** [in_force ds c]: [c] is what the definitions [ds], in this order, amount to. *)
Definition in_force (ds : list located) (c : config_t) : Prop :=
  map s_name (cf_sequences c) = first_names (names ds) /\
  Forall (fun s => exists src, s_source s = Some src /\ last_definition (s_name s) ds = Some (s_filters s, src)) (cf_sequences c) /\
  match cf_ignore c with Some l => l | None => [] end = ignored ds.

(** ** Layout

    Free text for a list of tokens: blanks, newlines and comments between them, key
    words in any case, and characters that mean nothing. *)

(** Characters that begin no token and no comment. *)
Definition noise (c : byte) : Prop :=
  ~ wordchar c /\ ~ In c [x09; x20; newline; "#"%byte; "{"%byte; "}"%byte; ";"%byte; quote].

Inductive gap : str -> Prop :=
| gap_nil : gap []
| gap_char c g : c = x09 \/ c = x20 \/ c = newline \/ noise c -> gap g -> gap (c :: g)
| gap_comment s g : ~ In newline s -> gap g -> gap ("#"%byte :: s ++ newline :: g).

(** At the end of the file a comment needs no newline. *)
Definition last_gap (s : str) : Prop :=
  gap s \/ exists g c, s = g ++ "#"%byte :: c /\ gap g /\ ~ In newline c.

Definition identifier (s : str) : Prop :=
  exists c r, s = c :: r /\ letter c /\ Forall wordchar r.

Inductive spelled : token -> str -> Prop :=
| sp_key k s : same_text s (keyword_text k) -> spelled (T_key k) s
| sp_open : spelled T_open (bs "{")
| sp_close : spelled T_close (bs "}")
| sp_eol : spelled T_eol (bs ";")
| sp_id s : identifier s -> (forall k, ~ same_text s (keyword_text k)) -> spelled (T_id s) s
| sp_qstring s : nonul s -> ~ In quote s -> ~ In newline s -> spelled (T_qstring s) (quote :: s ++ [quote])
| sp_number s v : s <> [] -> digits 10 s v -> (v < 2 ^ 31)%N -> spelled (T_number (Z.of_N v)) s.

Definition is_punctuation (t : token) : bool :=
  match t with T_open | T_close | T_eol | T_qstring _ => true | _ => false end.

Inductive layout : list token -> str -> Prop :=
| lay_end g : last_gap g -> layout [] g
| lay_token g t s ts text :
    gap g -> spelled t s -> layout ts text ->
    (is_punctuation t = false -> forall c r, text = c :: r -> ~ wordchar c) ->
    layout (t :: ts) (g ++ s ++ text).
