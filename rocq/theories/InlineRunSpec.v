(** * The shape of a run in inline mode

    Grammars of traces, as in RunSpec.v; they do not mention the programs. *)

From Verif Require Import Base Stdio CleanSpec Utf8Spec Filter Prog File FileSpec InlineSpec.

Local Open Scope nat_scope.

(** ** The next piece of a stream *)

(** The bytes [b] end with a character of which [missing] bytes are still to come. *)
Definition unfinished (b : list byte) (missing : nat) : Prop :=
  exists q c k w, b = q ++ c :: k /\ Forall continuation k /\ seq_width c = Some w /\
    length k + missing = w - 1 /\ 0 < missing.

(** A byte that is read, found not to continue a character, and pushed back.  The char
    0xFF cannot be pushed back where it has the value of EOF. *)
Definition returned (schar : bool) (c : byte) : Prop := ~ continuation c /\ ~ (schar = true /\ c = xff).

(** Behind [b] come the bytes [rest]; [add] are taken in addition, [after] is what is left. *)
Inductive completed (schar : bool) (b rest : list byte) : list byte -> bool -> list byte -> Prop :=
| cp_whole : (forall m, ~ unfinished b m) -> completed schar b rest [] false rest
| cp_continued m add after : unfinished b m -> rest = add ++ after -> Forall continuation add -> length add <= m ->
    length add = m \/ (match after with c :: _ => returned schar c | [] => True end) ->
    completed schar b rest add false after
| cp_stuck m add after : unfinished b m -> rest = add ++ xff :: after -> Forall continuation add -> length add < m ->
    schar = true -> completed schar b rest (add ++ [xff]) true after.

(** [piece_of schar input text newline warning rest] *)
Inductive piece_of (schar : bool) (input : list byte) : str -> bool -> bool -> list byte -> Prop :=
| po_line t rest : next_read input (t ++ [newline]) rest -> nonul t -> piece_of schar input t true false rest
| po_part bytes behind add w rest : next_read input bytes behind ->
    ~ In newline (cstr bytes) -> ~ only_continuation (cstr bytes) ->
    completed schar (cstr bytes) behind add w rest ->
    piece_of schar input (cstr bytes ++ add) false w rest.

(** The program looks for a character in front of its buffer. *)
Definition looks_outside (input : list byte) : Prop :=
  exists bytes rest, next_read input bytes rest /\ ~ In newline (cstr bytes) /\ only_continuation (cstr bytes).

(** ** A stream *)

Definition warned (w : bool) : list event :=
  if w then [Ev (Print Stderr (bs "detox: warning: stream push back failed" ++ [newline])) tt] else [].
Definition wrote (text : str) (nl : bool) : list event :=
  Ev (Print Stdout text) tt :: (if nl then [Ev (Print Stdout [newline]) tt] else []).

(** Cleaning text [t] ends the program. *)
Definition cleaning_ends (o : options_t) (t : str) (w : stop) : Prop :=
  t <> bs "." /\ t <> bs ".." /\
  match sequence_run_filters (o_platform o) (o_sequence_to_use o) (Some t) with
  | Ok _ => False
  | UB why => w = StopUB why
  | Exit code => w = StopExit code
  end.

(** What is said while text [t] is cleaned. *)
Inductive remarked (o : options_t) (t : str) : list event -> Prop :=
| remarked_dots : t = bs "." \/ t = bs ".." -> remarked o t []
| remarked_text : t <> bs "." -> t <> bs ".." -> remarked o t (map heard (remarks o t)).

(** What is printed for a stream with these contents, and how it ends (None: normally). *)
Inductive stream_read (o : options_t) : list byte -> list event -> option stop -> Prop :=
| sr_end : stream_read o [] [] None
| sr_piece input t nl w rest c r tr e :
    piece_of (p_schar (o_platform o)) input t nl w rest -> remarked o t c -> cleans_to o t r -> stream_read o rest tr e ->
    stream_read o input (warned w ++ c ++ wrote r nl ++ tr) e
| sr_ends input t nl w rest c e :
    piece_of (p_schar (o_platform o)) input t nl w rest -> remarked o t c -> cleaning_ends o t e ->
    stream_read o input (warned w ++ c) (Some e)
| sr_outside input : looks_outside input -> stream_read o input [] (Some (StopUB BufferUnderread)).

(** ** A file, or standard input *)

Definition said_of (f why : str) : event := Ev (Print Stderr (f ++ bs ": " ++ why ++ [newline])) tt.

Inductive inline_read (o : options_t) : option str -> list event -> option stop -> Prop :=
| ir_read f contents tr e : stream_read o contents tr e -> inline_read o f (Ev (ReadStream f) (inl contents) :: tr) e
| ir_closed f m : inline_read o (Some f) [Ev (ReadStream (Some f)) (inr m); said_of f m] None
| ir_no_stdin m : inline_read o None [Ev (ReadStream None) (inr m)] None.

(** ** Arguments *)

Inductive inline_argument (o : options_t) (f : str) : list event -> option stop -> Prop :=
| ia_gone m : inline_argument o f [Ev (Lstat f) (inr m); said_of f m] None
| ia_directory st : st_kind st = SDir -> inline_argument o f [Ev (Lstat f) (inl st); said_of f (bs "is a directory")] None
| ia_read st tr e : st_kind st <> SDir -> inline_read o (Some f) tr e ->
    inline_argument o f (Ev (Lstat f) (inl st) :: tr) e.

Inductive inline_work (o : options_t) : list str -> list event -> option stop -> Prop :=
| iw_done : inline_work o [] [] None
| iw_next f fs t1 t2 e : inline_argument o f t1 None -> inline_work o fs t2 e -> inline_work o (f :: fs) (t1 ++ t2) e
| iw_ended f fs t w : inline_argument o f t (Some w) -> inline_work o (f :: fs) t (Some w).

(** Without arguments standard input is read. *)
Definition inline_session (o : options_t) (fs : list str) : list event -> option stop -> Prop :=
  match fs with [] => inline_read o None | _ => inline_work o fs end.
