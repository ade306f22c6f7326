(** * Properties of complete runs in inline mode (C74) *)

From Verif Require Import Base BaseFacts Stdio CleanString CleanSpec Utf8Spec Filter Spoof Filelist Prog ProgFacts File Inline InlineSpec ConfigParse
  ConfigLoad ConfigLoadSpec Options OptionsSpec ConfigLex Startup Main MainSpec MainProofs RunSpec InlineRunSpec InlineRunProofs InlineRunProofs2 PropMain PropRun.

Local Open Scope nat_scope.

(** ** C74 *)

(** Every stream of bytes is read in exactly one way, and ends in one. *)
Theorem C74_every_stream :
  forall o contents, o_sequence_to_use o <> None ->
    exists tr e, stream_read o contents tr e /\ (forall tr' e', stream_read o contents tr' e' -> tr' = tr /\ e' = e).
Proof.
  intros o contents S. destruct (stream_total o S (Datatypes.S (length contents)) contents (le_n _)) as (tr & e & H).
  exists tr, e. split; [exact H|]. intros tr' e' H'. exact (stream_unique _ _ _ _ _ _ S H' H).
Qed.
Print Assumptions C74_every_stream.

(** One file or standard input: these are the calls, and no others are possible. *)
Theorem C74_one_stream :
  forall o f tr, o_sequence_to_use o <> None ->
    (trace_of (parse_inline f o) tr (Ret tt) <-> inline_read o f tr None) /\
    (forall w, trace_of (parse_inline f o) tr (Stop w) <-> inline_read o f tr (Some w)).
Proof. intros o f tr S. split; [exact (inline_iff o f tr None S)|]. intros w. exact (inline_iff o f tr (Some w) S). Qed.
Print Assumptions C74_one_stream.

(** A list of arguments. *)
Theorem C74_arguments :
  forall o fs tr, o_sequence_to_use o <> None ->
    (trace_of (inline_arguments o fs) tr (Ret tt) <-> inline_work o fs tr None) /\
    (forall w, trace_of (inline_arguments o fs) tr (Stop w) <-> inline_work o fs tr (Some w)).
Proof.
  intros o fs tr S. split; [exact (inline_arguments_iff o S fs tr None)|]. intros w. exact (inline_arguments_iff o S fs tr (Some w)).
Qed.
Print Assumptions C74_arguments.

(** The whole program: either it does nothing but print and stop, or, in inline mode, its
    complete runs are known. *)
Theorem C74_program :
  forall s argv,
    (exists w, forall fuel, ends (main fuel s argv) w) \/
    (exists ws fs o c said, started s argv ws fs o c /\
       prelude s ws c said /\
       (o_is_inline_mode o = true -> forall fuel tr,
         (forall n, trace_of (main fuel s argv) tr (Ret n) <->
            n = EXIT_SUCCESS /\ exists tr2, tr = map heard said ++ tr2 /\ inline_session o fs tr2 None) /\
         (forall w, trace_of (main fuel s argv) tr (Stop w) <->
            exists tr2, tr = map heard said ++ tr2 /\ inline_session o fs tr2 (Some w)))).
Proof. exact inline_program. Qed.
Print Assumptions C74_program.

(** With the built-in configuration and its sequences only a stream with a NUL or with
    invalid UTF-8 can make the program give up; files that cannot be read do not. *)
Theorem C74_out_of_the_box :
  forall fuel sy argv tr w,
    trace_of (main fuel sy argv) tr (Stop w) -> Exists (fun e => match e with Ev c _ => ~ is_print c end) tr ->
    config_paths (m_env sy) = [] ->
    (forall ws fs, asks (posix_env sy) (tl argv) ws fs ->
       last_of config_named ws None /\ (In Inline_mode ws \/ (exists a r, argv = a :: r /\ called a (bs "inline-detox"))) /\
       (exists name, In name [None; Some (bs "default"); Some (bs "iso8859_1"); Some (bs "iso8859_1-legacy"); Some (bs "utf_8");
                              Some (bs "uncgi"); Some (bs "lower")] /\ wanted_sequence sy ws name /\
         (name = Some (bs "lower") -> p_ctype (m_platform sy) = c_locale))) ->
    exists f contents, In (Ev (ReadStream f) (inl contents)) tr /\ ~ (nonul contents /\ valid_utf8 contents).
Proof. exact inline_out_of_the_box. Qed.
Print Assumptions C74_out_of_the_box.

(** Four arguments: a file that is missing, a directory, a file that cannot be opened and
    one that can. *)
Definition four (c : call) : option (answer c) :=
  match c return option (answer c) with
  | Lstat f => Some (if str_eqb f (bs "gone") then inr (bs "No such file or directory")
                     else inl {| st_kind := (if str_eqb f (bs "dir") then SDir else SReg); st_dev := 1; st_ino := 2; st_nlink := 1 |})
  | ReadStream (Some f) => Some (if str_eqb f (bs "secret") then inr (bs "Permission denied") else inl (bs "a b" ++ [newline] ++ bs "c d"))
  | Print _ _ => Some tt
  | _ => None
  end.

Example C74_example :
  let p := main 9 (plain_system no_files no_env) (words ["inline-detox"; "gone"; "dir"; "secret"; "text"]%string) in
  asked_for (fst (ask four p)) =
    [Lstat (bs "gone"); Print Stderr (bs "gone: No such file or directory" ++ [newline]);
     Lstat (bs "dir"); Print Stderr (bs "dir: is a directory" ++ [newline]);
     Lstat (bs "secret"); ReadStream (Some (bs "secret")); Print Stderr (bs "secret: Permission denied" ++ [newline]);
     Lstat (bs "text"); ReadStream (Some (bs "text")); Print Stdout (bs "a_b"); Print Stdout [newline]; Print Stdout (bs "c_d")] /\
  snd (ask four p) = Ret 0%N.
Proof. vm_compute. split; reflexivity. Qed.

(** The warning. *)
Example C74_warning :
  exists rest, piece_of true (repeat "a"%byte 1006 ++ [xe2; xff; "b"]%byte) (repeat "a"%byte 1006 ++ [xe2; xff]%byte) false true rest /\ rest = ["b"%byte].
Proof. exists ["b"%byte]. split; [|reflexivity]. apply piece_iff. vm_compute. reflexivity. Qed.
