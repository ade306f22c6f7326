(** * What the program is supposed to say while it starts

    Everything it prints until it sets to work or gives up, in this order: about the command
    line, about the configuration files, about the tables. *)

From Verif Require Import Base Stdio Table ParseTable ParseTableSpec TableFileSpec EscapeSpec GenSpec Filter Spoof Filelist Prog File
  ConfigLex ConfigParse ConfigLoad ConfigSpec ConfigLoadSpec Options Startup Main CheckSpec OptionsSpec MainSpec.

Local Open Scope nat_scope.

Definition words := list (stream * str).

(** A line on standard error. *)
Definition on_stderr (text : str) : words := [(Stderr, ended text)].

(** ** The command line *)

(** What may be wrong with it. *)
Inductive defect :=
| Unknown_letter (c : byte)
| Value_missing (c : byte)
| Unknown_name (text : str)
| Value_given (name : str)
| Name_missing (text : str).

(** The text behind two dashes goes up to the first '=', if there is one. *)
Definition name_in (text name rest : str) : Prop :=
  text = name ++ rest /\ ~ In "="%byte name /\ (rest = [] \/ exists value, rest = "="%byte :: value).

(** What is wrong with a text behind two dashes. *)
Inductive wrong_name (text : str) : defect -> Prop :=
| wn_unknown name rest :
    name_in text name rest -> name <> [] -> (forall w, ~ long_option name w) -> wrong_name text (Unknown_name text)
| wn_value full name more value w :
    name_in text name ("="%byte :: value) -> name <> [] -> long_name full w -> full = name ++ more ->
    wrong_name text (Value_given full)
| wn_missing value : text = "="%byte :: value -> wrong_name text (Name_missing text).

(** [complaint posix args ws d]: after asking for [ws] the arguments go wrong, in this way.
    Compare [mistake]. *)
Inductive complaint (posix : bool) : list str -> list wish -> defect -> Prop :=
| cp_letter cs us c r rest :
    alone_letters cs us -> ~ known_letter c -> (cs = [] -> c <> "-"%byte) ->
    complaint posix (dashed (cs ++ c :: r) :: rest) us (Unknown_letter c)
| cp_missing cs us c v w :
    alone_letters cs us -> letter_with c v w -> complaint posix [dashed (cs ++ [c])] us (Value_missing c)
| cp_long text rest d : wrong_name text d -> complaint posix (double_dashed text :: rest) [] d
| cp_file f rest ws d : posix = false -> operand f -> complaint posix rest ws d -> complaint posix (f :: rest) ws d
| cp_letters cs us rest ws d :
    cs <> [] -> alone_letters cs us -> complaint posix rest ws d -> complaint posix (dashed cs :: rest) (us ++ ws) d
| cp_attached cs us c v w rest ws d :
    alone_letters cs us -> letter_with c v w -> v <> [] -> complaint posix rest ws d ->
    complaint posix (dashed (cs ++ c :: v) :: rest) (us ++ w :: ws) d
| cp_separate cs us c v w rest ws d :
    alone_letters cs us -> letter_with c v w -> complaint posix rest ws d ->
    complaint posix (dashed (cs ++ [c]) :: v :: rest) (us ++ w :: ws) d
| cp_after_long text w rest ws d :
    long_option text w -> complaint posix rest ws d -> complaint posix (double_dashed text :: rest) (w :: ws) d.

(** The name under which it complains: argv[0] without the slashes at its end, unless it
    consists of slashes. *)
Definition goes_by (argv0 name : str) : Prop :=
  exists slashes, argv0 = name ++ slashes /\ Forall (eq "/"%byte) slashes /\
    (Forall (eq "/"%byte) name /\ slashes = [] \/ exists n c, name = n ++ [c] /\ c <> "/"%byte).

Definition worded (name : str) (d : defect) : str :=
  name ++ bs ": " ++
  match d with
  | Unknown_letter c => bs "invalid option -- '" ++ [c] ++ bs "'"
  | Value_missing c => bs "option requires an argument -- '" ++ [c] ++ bs "'"
  | Unknown_name text => bs "unrecognized option '--" ++ text ++ bs "'"
  | Value_given long => bs "option '--" ++ long ++ bs "' doesn't allow an argument"
  | Name_missing text =>
    bs "option '--" ++ text ++
    bs "' is ambiguous; possibilities: '--dry-run' '--help' '--verbose' '--inline' '--recursive' '--special'"
  end.

(** Whether it was called as inline-detox, and what it prints then. *)
Definition as_inline (argv : list str) : Prop := exists a r, argv = a :: r /\ called a (bs "inline-detox").

Inductive usage_text (argv : list str) : str -> Prop :=
| ut_inline : as_inline argv -> usage_text argv usage_message_inline
| ut_plain : ~ as_inline argv -> usage_text argv usage_message.

Inductive help_text (argv : list str) : str -> Prop :=
| ht_inline : as_inline argv -> help_text argv (usage_message_inline ++ [newline] ++ help_message_inline)
| ht_plain : ~ as_inline argv -> help_text argv (usage_message ++ [newline] ++ help_message).

Inductive last_words (s : system) (argv : list str) : wish -> str -> Prop :=
| lw_help t : help_text argv t -> last_words s argv Help t
| lw_version : last_words s argv Version (m_package s ++ [newline])
| lw_usage t : usage_text argv t -> last_words s argv Usage t.

Definition stays (ws : list wish) : Prop := Forall (fun w => ~ parting w) ws.

(** Command lines that end the program: with what it says, and its exit status. *)
Inductive dismissed (s : system) (argv : list str) : words -> N -> Prop :=
| dm_parting before w after fs t :
    asks (posix_env s) (tl argv) (before ++ w :: after) fs \/ mistake (posix_env s) (tl argv) (before ++ w :: after) ->
    stays before -> last_words s argv w t -> dismissed s argv [(Stdout, t)] 0
| dm_wrong ws d argv0 name t :
    complaint (posix_env s) (tl argv) ws d -> stays ws -> hd_error argv = Some argv0 -> goes_by argv0 name ->
    usage_text argv t -> dismissed s argv (on_stderr (worded name d) ++ [(Stdout, t)]) 0
| dm_idle ws :
    asks (posix_env s) (tl argv) ws [] -> stays ws -> ~ In List_sequences ws -> ~ In Inline_mode ws -> ~ as_inline argv ->
    dismissed s argv [(Stdout, usage_message)] 1.

(** ** Configuration files *)

(** What a scanner rule prints. *)
Definition spoken (printed : str) : words := match printed with [] => [] | _ => [(Stdout, printed)] end.

(** [read_to input ts n said rest]: the tokens at the beginning of [input], the number of
    newlines between tokens, and what is said on the way. *)
Inductive read_to : str -> list token -> N -> words -> str -> Prop :=
| rt_here input : read_to input [] 0 [] input
| rt_newline input s rest ts n said rest' :
    munch input s rest R_newline -> read_to rest ts n said rest' -> read_to input ts (1 + n) said rest'
| rt_skip input s rest r ts n said rest' :
    munch input s rest r -> r <> R_newline -> emits r s [] None -> read_to rest ts n said rest' ->
    read_to input ts n said rest'
| rt_token input s rest r printed t ts n said rest' :
    munch input s rest r -> emits r s printed (Some t) -> read_to rest ts n said rest' ->
    read_to input (t :: ts) n (spoken printed ++ said) rest'
| rt_stray c rest ts n said rest' :
    stray (c :: rest) -> read_to rest ts n said rest' -> read_to (c :: rest) ts n said rest'.

(** Newlines in a text. *)
Definition newlines (s : str) : N := N.of_nat (length (filter (beq newline) s)).

(** Tokens that are the beginning of a configuration. *)
Definition possible (ts : list token) : Prop := exists more ds, config_text (ts ++ more) ds.

(** A number as an int in decimal. *)
Definition in_decimal (n : N) (s : str) : Prop :=
  exists z k, (- 2 ^ 31 <= z < 2 ^ 31)%Z /\ Z.of_N n = (z + k * 2 ^ 32)%Z /\ signed_decimal z s.

Definition syntax_error (filename : str) (line text : str) : words :=
  on_stderr (bs "detox: error parsing config file " ++ filename ++ bs ": syntax error" ++ [newline] ++
          [x09] ++ bs "line " ++ line ++ bs ": " ++ text).

(** How reading ends: with a number of lines, or with the end of the program. *)
Inductive fate :=
| Goes_on (lines : N)
| Gives_up (w : stop).

(** A file is read; [n] lines have been counted so far.  The first token that cannot stand
    where it stands is named, the end of the file is not. *)
Inductive file_read (filename : str) (n : N) (bytes : str) : words -> fate -> Prop :=
| fr_good ts k said ds :
    read_to bytes ts k said [] -> config_text ts ds -> file_read filename n bytes said (Goes_on (n + k))
| fr_token ts k said rest s rest' r printed t line :
    read_to bytes ts k said rest -> possible ts ->
    munch rest s rest' r -> emits r s printed (Some t) -> ~ possible (ts ++ [t]) -> in_decimal (n + k) line ->
    file_read filename n bytes (said ++ spoken printed ++ syntax_error filename line s) (Gives_up (StopExit 1))
| fr_end ts k said line :
    read_to bytes ts k said [] -> possible ts -> (forall ds, ~ config_text ts ds) -> in_decimal (n + k) line ->
    file_read filename n bytes (said ++ syntax_error filename line []) (Gives_up (StopExit 1))
| fr_nul ts k said s d rest :
    read_to bytes ts k said (quote :: s ++ d :: rest) -> possible ts ->
    In NUL s -> ~ In quote s -> ~ In newline s -> d = quote \/ d = newline ->
    file_read filename n bytes said (Gives_up (StopUB ReadPastEnd)).

(** Several files; the lines are counted on. *)
Inductive files_read (files : str -> file_at) : N -> list str -> words -> fate -> Prop :=
| fs_none n : files_read files n [] [] (Goes_on n)
| fs_missing n p ps said e : files p = NoFile -> files_read files n ps said e -> files_read files n (p :: ps) said e
| fs_unreadable n p ps :
    files p = Unreadable -> files_read files n (p :: ps) (on_stderr (bs "input in flex scanner failed")) (Gives_up (StopExit 2))
| fs_bad n p ps bytes said w :
    files p = Contents bytes -> file_read p n bytes said (Gives_up w) -> files_read files n (p :: ps) said (Gives_up w)
| fs_good n p ps bytes said m said' e :
    files p = Contents bytes -> file_read p n bytes said (Goes_on m) -> files_read files m ps said' e ->
    files_read files n (p :: ps) (said ++ said') e.

(** Which files, and what is said about them all.  The lines are counted from 1. *)
Inductive configured (env : environment) : option str -> words -> fate -> Prop :=
| cf_missing path :
    e_files env path = NoFile ->
    configured env (Some path) (on_stderr (bs "detox: unable to open: " ++ path)) (Gives_up (StopExit 1))
| cf_explicit path said e :
    e_files env path <> NoFile -> files_read (e_files env) 1 [path] said e -> configured env (Some path) said e
| cf_default said e : files_read (e_files env) 1 (config_paths env) said e -> configured env None said e.

(** ** Tables *)

(** What is found where a table is looked for. *)
Definition readable (s : system) (path : str) (bytes : list byte) : Prop :=
  e_files (m_env s) path = Contents bytes \/ e_files (m_env s) path = Unreadable /\ bytes = [].

(** [table_read s path said found]: the first entry with code 0, or for which there is no
    room, spoils the table. *)
Inductive table_read (s : system) (path : str) : words -> bool -> Prop :=
| tr_missing : e_files (m_env s) path = NoFile -> m_denied s path = None -> table_read s path [] false
| tr_denied m :
    e_files (m_env s) path = NoFile -> m_denied s path = Some m ->
    table_read s path (on_stderr (bs "Unable to open translation table: " ++ m)) false
| tr_good bytes ds :
    readable s path bytes -> file_says (m_locale s) bytes ds ->
    ~ In 0%N (map fst (entries ds)) -> length (entries ds) <= room bytes -> table_read s path [] true
| tr_rejected bytes ds before c x after cs :
    readable s path bytes -> file_says (m_locale s) bytes ds -> entries ds = before ++ (c, x) :: after ->
    ~ In 0%N (map fst before) -> length before <= room bytes -> c = 0%N \/ length before = room bytes ->
    in_hex false c cs ->
    table_read s path (on_stderr (bs "Failed to add row " ++ cs ++ bs " " ++ quoted x ++ bs " to translation table")) false.

(** Looking in one place after the other, long paths excepted. *)
Inductive looked_for (s : system) : list str -> words -> bool -> Prop :=
| lf_nowhere : looked_for s [] [] false
| lf_long p ps said found : 256 <= length p -> looked_for s ps said found -> looked_for s (p :: ps) said found
| lf_found p ps said : length p < 256 -> table_read s p said true -> looked_for s (p :: ps) said true
| lf_not_here p ps said said' found :
    length p < 256 -> table_read s p said false -> looked_for s ps said' found -> looked_for s (p :: ps) (said ++ said') found.

Definition places (s : system) (name : str) : list str :=
  match e_datadir (m_env s) with Some d => [d ++ bs "/detox/" ++ name] | None => [] end ++
  [bs "/usr/share/detox/" ++ name; bs "/usr/local/share/detox/" ++ name].

(** The filters that use a table, and the table they use if they are not told. *)
Inductive uses_table : cleaner -> str -> Prop :=
| us_iso : uses_table F_iso8859_1 (bs "iso8859_1.tbl")
| us_utf : uses_table F_utf_8 (bs "unicode.tbl")
| us_safe : uses_table F_safe (bs "safe.tbl").

Definition builtin_names : list str := map bs ["cp1252"; "iso8859_1"; "safe"; "unicode"]%string.

(** A filter gets its table; a filter that cannot have it ends the program. *)
Inductive filter_prepared (s : system) (f : filter_t) : words -> bool -> Prop :=
| fp_plain : (forall name, ~ uses_table (f_cleaner f) name) -> filter_prepared s f [] true
| fp_builtin name b :
    uses_table (f_cleaner f) name -> f_builtin f = Some b -> In b builtin_names -> filter_prepared s f [] true
| fp_no_builtin name b :
    uses_table (f_cleaner f) name -> f_builtin f = Some b -> ~ In b builtin_names ->
    filter_prepared s f (on_stderr (bs "detox: unable to locate builtin table " ++ quoted b)) false
| fp_file name file said :
    uses_table (f_cleaner f) name -> f_builtin f = None -> f_filename f = Some file -> table_read s file said true ->
    filter_prepared s f said true
| fp_no_file name file said :
    uses_table (f_cleaner f) name -> f_builtin f = None -> f_filename f = Some file -> table_read s file said false ->
    filter_prepared s f (said ++ on_stderr (bs "detox: unable to parse file: " ++ quoted file)) false
| fp_default name said found :
    uses_table (f_cleaner f) name -> f_builtin f = None -> f_filename f = None -> looked_for s (places s name) said found ->
    filter_prepared s f said true.

Inductive prepared (s : system) : list filter_t -> words -> bool -> Prop :=
| pd_done : prepared s [] [] true
| pd_stop f fs said : filter_prepared s f said false -> prepared s (f :: fs) said false
| pd_next f fs said said' ok : filter_prepared s f said true -> prepared s fs said' ok -> prepared s (f :: fs) (said ++ said') ok.

(** ** All together *)

(** What happens when the program is started: it gives up, or it sets to work for [ws] on
    [fs], with configuration [c]. *)
Inductive opening :=
| Over (w : stop)
| Work (ws : list wish) (fs : list str) (c : config_t).

Inductive opens (s : system) (argv : list str) : words -> opening -> Prop :=
| op_dismissed said n : dismissed s argv said n -> opens s argv said (Over (StopExit n))
| op_unreadable ws fs file said w :
    asks (posix_env s) (tl argv) ws fs -> stays ws -> In List_sequences ws \/ fs <> [] \/ In Inline_mode ws \/ as_inline argv ->
    last_of config_named ws file -> configured (m_env s) file said (Gives_up w) -> opens s argv said (Over w)
| op_list ws fs file said n c printed name describe entries :
    asks (posix_env s) (tl argv) ws fs -> stays ws -> In List_sequences ws ->
    last_of config_named ws file -> configured (m_env s) file said (Goes_on n) ->
    config_file_load (m_env s) file = (printed, Ok c) ->
    wanted_sequence s ws name -> (forall f, described f (describe f)) ->
    marked (if existsb is_verbose ws then long_entry describe else short_entry) (cf_sequences c) name entries ->
    opens s argv (said ++ [(Stdout, (if existsb is_verbose ws then paragraphs entries
                                     else bs "available sequences:" ++ [eol] ++ concat entries) ++ ignore_section (cf_ignore c))])
      (Over (StopExit 0))
| op_no_sequence ws fs file said n c printed name :
    asks (posix_env s) (tl argv) ws fs -> stays ws -> ~ In List_sequences ws -> fs <> [] \/ In Inline_mode ws \/ as_inline argv ->
    last_of config_named ws file -> configured (m_env s) file said (Goes_on n) ->
    config_file_load (m_env s) file = (printed, Ok c) ->
    wanted_sequence s ws name -> sequence_choose_default (cf_sequences c) name = None ->
    opens s argv (said ++ on_stderr (bs "detox: no sequence to work with")) (Over (StopExit 1))
| op_no_table ws fs file said n c printed name seq said' :
    asks (posix_env s) (tl argv) ws fs -> stays ws -> ~ In List_sequences ws -> fs <> [] \/ In Inline_mode ws \/ as_inline argv ->
    last_of config_named ws file -> configured (m_env s) file said (Goes_on n) ->
    config_file_load (m_env s) file = (printed, Ok c) ->
    wanted_sequence s ws name -> sequence_choose_default (cf_sequences c) name = Some seq ->
    prepared s (s_filters seq) said' false -> opens s argv (said ++ said') (Over (StopExit 1))
| op_works ws fs file said n c printed name seq said' :
    asks (posix_env s) (tl argv) ws fs -> stays ws -> ~ In List_sequences ws -> fs <> [] \/ In Inline_mode ws \/ as_inline argv ->
    last_of config_named ws file -> configured (m_env s) file said (Goes_on n) ->
    config_file_load (m_env s) file = (printed, Ok c) ->
    wanted_sequence s ws name -> sequence_choose_default (cf_sequences c) name = Some seq ->
    prepared s (s_filters seq) said' true -> opens s argv (said ++ said') (Work ws fs c).
