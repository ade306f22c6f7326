(** * Properties of the messages printed while names are cleaned (C81) *)

From Verif Require Import Base BaseFacts Stdio Table CleanString CleanSpec Utf8Spec Filter SequenceSpec Prog ProgFacts File FS FileSpec Inline
  InlineSpec Warnings WarningsSpec RunSpec PropSequence PropFile Play WarningsProofs4.

(** ** C81 *)

(** When cleaning a name succeeds, the messages printed are the ones the name deserves:
    there is exactly one such list, and each message is a line on stderr. *)
Theorem C81_messages :
  forall pf seq s r, sequence_run_filters pf (Some seq) (Some s) = Ok r ->
    exists l, sequence_remarks pf (s_filters seq) s l /\ (forall l', sequence_remarks pf (s_filters seq) s l' -> l' = l) /\
      fst (sequence_run_says pf (Some seq) (Some s)) = map as_line l.
Proof. exact clean_messages. Qed.
Print Assumptions C81_messages.

(** When cleaning ends the program, it is because of a filter that cannot be run: its last
    words come after what the filters before it had to say. *)
Theorem C81_last_words :
  forall pf seq s c, sequence_run_filters pf (Some seq) (Some s) = Exit c ->
    c = EXIT_FAILURE /\ exists pre f post m l text, s_filters seq = pre ++ f :: post /\ run_filters pf pre (Some s) = Ok (Some m) /\
      sequence_remarks pf pre s l /\ last_words f text /\
      fst (sequence_run_says pf (Some seq) (Some s)) = map as_line (l ++ [text]).
Proof. exact clean_last_words. Qed.
Print Assumptions C81_last_words.

(** Processing a file starts with these messages, before anything else is done. *)
Theorem C81_file :
  forall o seq p dir base tr q, o_sequence_to_use o = Some seq ->
    last_component p dir base -> base <> bs "." -> base <> bs ".." ->
    trace_of (parse_file p o) tr (Ret q) ->
    exists l tr2, sequence_remarks (o_platform o) (s_filters seq) base l /\
      tr = map (fun text => Ev (Print Stderr (text ++ [newline])) tt) l ++ tr2 /\ file_handled o p tr2 q.
Proof. exact file_messages. Qed.
Print Assumptions C81_file.

(** In inline mode the messages about a line come before the cleaned line. *)
Theorem C81_line :
  forall o seq f t r, o_sequence_to_use o = Some seq ->
    line_text t -> (length t <= 1006)%nat -> t <> bs "." -> t <> bs ".." ->
    sequence_run_filters (o_platform o) (Some seq) (Some t) = Ok (Some r) ->
    exists l, sequence_remarks (o_platform o) (s_filters seq) t l /\
      forall tr, trace_of (parse_inline f o) (Ev (ReadStream f) (inl (ended t)) :: tr) (Ret tt) <->
        tr = map (fun text => Ev (Print Stderr (text ++ [newline])) tt) l ++
             [Ev (Print Stdout r) tt; Ev (Print Stdout [newline]) tt].
Proof. exact line_messages. Qed.
Print Assumptions C81_line.

(** Most shipped sequences never complain. *)
Theorem C81_shipped_silent :
  forall pf name seq s r,
    In name [bs "default"; bs "lower"; bs "iso8859_1"; bs "iso8859_1-legacy"; bs "uncgi"; bs "uncgi-only"] -> shipped name seq ->
    sequence_run_filters pf (Some seq) (Some s) = Ok r -> fst (sequence_run_says pf (Some seq) (Some s)) = [].
Proof. exact shipped_silent. Qed.
Print Assumptions C81_shipped_silent.

(** utf_8 does not complain about valid names, *)
Theorem C81_valid_silent :
  forall pf seq s r, shipped (bs "utf_8") seq -> sequence_run_filters pf (Some seq) (Some s) = Ok r ->
    nonul s -> valid_utf8 s -> fst (sequence_run_says pf (Some seq) (Some s)) = [].
Proof. exact utf_8_silent. Qed.
Print Assumptions C81_valid_silent.

(** nor about names it has made itself. *)
Theorem C81_silent_afterwards :
  forall pf seq s m r, shipped (bs "utf_8") seq -> nonul s -> (strlen s < 2 ^ 46)%N ->
    sequence_run_filters pf (Some seq) (Some s) = Ok (Some m) -> sequence_run_filters pf (Some seq) (Some m) = Ok r ->
    fst (sequence_run_says pf (Some seq) (Some m)) = [].
Proof. exact utf_8_afterwards. Qed.
Print Assumptions C81_silent_afterwards.

(** A name with a stray continuation byte, two code points that do not exist, a character
    cut short by another, an overlong NUL, and a character cut short by the end. *)
Definition all_wrong : str :=
  ["a"; x80; xfd; xbf; xbf; xbf; xbf; xbf; xe2; x82; "b"; xf4; x90; x80; x80; xfc; x80; x80; x80; x80; x80; xc3]%byte.

Example C81_example :
  sequence_run_says (mkPlatform true c_locale) (seq_of "utf_8") (Some all_wrong) =
    (map as_line
       [bs "detox: warning: invalid encoding";
        bs "detox: warning: unicode character 0x7FFFFFFF is invalid";
        bs "detox: warning: UTF-8 sequence ended unexpectedly (missing con't)";
        bs "detox: warning: unicode character 0x00110000 is invalid";
        bs "detox: warning: UTF-8 encoded NULL encountered";
        bs "detox: warning: UTF-8 sequence ended unexpectedly (null)"],
     Ok (Some (bs "a_b_hidden_null_"))).
Proof. vm_compute. reflexivity. Qed.

Example C81_max_length :
  sequence_run_says (mkPlatform true c_locale)
    (Some {| s_name := bs "short"; s_filters := [mkFilter F_max_length None None false 4 None; mkFilter (F_unknown 99) None None false 0 None];
             s_source := None |}) (Some (bs "notes.markdown")) =
    ([as_line (bs "warning: max_length 4 is less than required file length for 'notes.markdown'.  giving up.");
      as_line (bs "detox: unknown filter 99")], Exit 1).
Proof. vm_compute. reflexivity. Qed.
