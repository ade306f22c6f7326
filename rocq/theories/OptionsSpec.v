(** * What a command line means *)

From Verif Require Import Base Filter Filelist File.

Local Open Scope nat_scope.

(** What the user may ask for. *)
Inductive wish :=
| Help | Version | Usage
| List_sequences | Dry_run | Recursive | Verbose | Inline_mode | Special
| Use_sequence (name : str)
| Use_config (file : str).

(** Letters that stand alone. *)
Inductive letter : byte -> wish -> Prop :=
| letter_h : letter "h"%byte Help
| letter_V : letter "V"%byte Version
| letter_q : letter "?"%byte Usage
| letter_L : letter "L"%byte List_sequences
| letter_n : letter "n"%byte Dry_run
| letter_r : letter "r"%byte Recursive
| letter_v : letter "v"%byte Verbose.

(** Letters with an argument. *)
Inductive letter_with : byte -> str -> wish -> Prop :=
| letter_s v : letter_with "s"%byte v (Use_sequence v)
| letter_f v : letter_with "f"%byte v (Use_config v).

(** Long names. *)
Inductive long_name : str -> wish -> Prop :=
| long_dry_run : long_name (bs "dry-run") Dry_run
| long_help : long_name (bs "help") Help
| long_verbose : long_name (bs "verbose") Verbose
| long_inline : long_name (bs "inline") Inline_mode
| long_recursive : long_name (bs "recursive") Recursive
| long_special : long_name (bs "special") Special.

(** A long option may be shortened. *)
Definition long_option (text : str) (w : wish) : Prop :=
  text <> [] /\ exists name more, long_name name w /\ name = text ++ more.

Definition known_letter (c : byte) : Prop := (exists w, letter c w) \/ (exists v w, letter_with c v w).

(** An argument that is a file, and no option: it does not begin with a dash, or is a
    single dash. *)
Definition operand (a : str) : Prop := a = bs "-" \/ forall r, a <> "-"%byte :: r.

Definition dashed (s : str) : str := "-"%byte :: s.
Definition double_dashed (s : str) : str := "-"%byte :: "-"%byte :: s.

(** The letters at the beginning of a group that stand alone. *)
Definition alone_letters (cs : str) (ws : list wish) : Prop := Forall2 letter cs ws.

(** [asks posix args ws files]: the arguments [args] ask for [ws], in this order, and name
    [files].  With [posix], nothing after the first file is an option. *)
Inductive asks (posix : bool) : list str -> list wish -> list str -> Prop :=
| asks_nothing : asks posix [] [] []
| asks_end files : asks posix (bs "--" :: files) [] files
| asks_file f rest ws fs : posix = false -> operand f -> asks posix rest ws fs -> asks posix (f :: rest) ws (f :: fs)
| asks_stop f rest : posix = true -> operand f -> asks posix (f :: rest) [] (f :: rest)
| asks_letters cs us rest ws fs :
    cs <> [] -> alone_letters cs us -> asks posix rest ws fs ->
    asks posix (dashed cs :: rest) (us ++ ws) fs
| asks_attached cs us c v w rest ws fs :
    alone_letters cs us -> letter_with c v w -> v <> [] -> asks posix rest ws fs ->
    asks posix (dashed (cs ++ c :: v) :: rest) (us ++ w :: ws) fs
| asks_separate cs us c v w rest ws fs :
    alone_letters cs us -> letter_with c v w -> asks posix rest ws fs ->
    asks posix (dashed (cs ++ [c]) :: v :: rest) (us ++ w :: ws) fs
| asks_long text w rest ws fs :
    long_option text w -> asks posix rest ws fs ->
    asks posix (double_dashed text :: rest) (w :: ws) fs.

(** [mistake posix args ws]: after asking for [ws] the arguments go wrong. *)
Inductive mistake (posix : bool) : list str -> list wish -> Prop :=
| mistake_letter cs us c r rest :
    alone_letters cs us -> ~ known_letter c -> (cs = [] -> c <> "-"%byte) ->
    mistake posix (dashed (cs ++ c :: r) :: rest) us
| mistake_missing cs us c v w :
    alone_letters cs us -> letter_with c v w -> mistake posix [dashed (cs ++ [c])] us
| mistake_long text rest :
    text <> [] -> (forall w, ~ long_option text w) -> mistake posix (double_dashed text :: rest) []
| mistake_file f rest ws : posix = false -> operand f -> mistake posix rest ws -> mistake posix (f :: rest) ws
| mistake_letters cs us rest ws :
    cs <> [] -> alone_letters cs us -> mistake posix rest ws -> mistake posix (dashed cs :: rest) (us ++ ws)
| mistake_attached cs us c v w rest ws :
    alone_letters cs us -> letter_with c v w -> v <> [] -> mistake posix rest ws ->
    mistake posix (dashed (cs ++ c :: v) :: rest) (us ++ w :: ws)
| mistake_separate cs us c v w rest ws :
    alone_letters cs us -> letter_with c v w -> mistake posix rest ws ->
    mistake posix (dashed (cs ++ [c]) :: v :: rest) (us ++ w :: ws)
| mistake_after_long text w rest ws :
    long_option text w -> mistake posix rest ws -> mistake posix (double_dashed text :: rest) (w :: ws).

(** Wishes that end the program at once. *)
Definition parting (w : wish) : Prop := w = Help \/ w = Version \/ w = Usage.

(** The last of several values. *)
Inductive last_of {A} (value : A -> option str) : list A -> option str -> Prop :=
| last_none l : (forall w, In w l -> value w = None) -> last_of value l None
| last_some before w v after :
    value w = Some v -> (forall w', In w' after -> value w' = None) -> last_of value (before ++ w :: after) (Some v).

Definition sequence_named (w : wish) : option str := match w with Use_sequence n => Some n | _ => None end.
Definition config_named (w : wish) : option str := match w with Use_config n => Some n | _ => None end.

Definition is_verbose (w : wish) : bool := match w with Verbose => true | _ => false end.

(** The name a program was called by: the last part of the path, trailing slashes apart. *)
Definition called (argv0 name : str) : Prop :=
  exists dir slashes, argv0 = dir ++ name ++ slashes /\ name <> [] /\ ~ In "/"%byte name /\
    Forall (eq "/"%byte) slashes /\ (dir = [] \/ exists d, dir = d ++ bs "/").

(** The options [o] are what was wished for. *)
Record granted (inline_bin : bool) (env_sequence : option str) (ws : list wish) (o : options_t) : Prop := {
  g_dry_run : o_dry_run o = true <-> In Dry_run ws;
  g_recurse : o_recurse o = true <-> In Recursive ws;
  g_special : o_special o = true <-> In Special ws;
  g_list : o_list_sequences o = true <-> In List_sequences ws;
  g_inline_bin : o_is_inline_bin o = inline_bin;
  g_inline : o_is_inline_mode o = true <-> inline_bin = true \/ In Inline_mode ws;
  g_verbose : o_verbose o = N.of_nat (length (filter is_verbose ws));
  g_sequence : exists n, last_of sequence_named ws n /\
                 o_sequence_name o = match n with Some n => Some n | None => env_sequence end;
  g_config : last_of config_named ws (o_check_config_file o);
  g_platform : o_sequence_to_use o = None /\ o_files_to_ignore o = None
}.
