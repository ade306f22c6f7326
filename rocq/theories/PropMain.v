(** * Properties of the command line and of whole runs (C47, C48, C36, C39, C56-C59) *)

From Verif Require Import Base BaseFacts Table CleanString CleanSpec Filter Spoof SequenceSpec SequenceProofs Filelist FilelistProofs
  Prog ProgFacts File FS FileSpec FileProofs WalkProofs Play Inline ConfigLex ConfigParse ConfigSpec ConfigLoad ConfigLoadSpec
  ConfigLoadProofs Options OptionsSpec OptionsProofs ConfigLex Startup Main MainSpec MainProofs DumpProofs PropSequence PropFile.

Local Open Scope nat_scope.

(** ** C47 *)

(** Every list of arguments either asks for something, in one way only, or contains a
    mistake. *)
Theorem C47_every_command_line :
  forall posix args,
    (exists ws fs, asks posix args ws fs /\ forall ws' fs', asks posix args ws' fs' -> ws' = ws /\ fs' = fs) \/
    (exists ws, mistake posix args ws).
Proof.
  intros posix args. destruct (asks_or_mistake posix (length args) args (le_n _)) as [(ws & fs & A)|M]; [left|right; exact M].
  exists ws, fs. split; [exact A|]. intros ws' fs' B. eapply asks_unique; eauto.
Qed.
Print Assumptions C47_every_command_line.

(** Wishes that do not end the program are granted; the files are kept in order; without
    files the program fails, except in inline mode and with -L. *)
Theorem C47_wishes_are_granted :
  forall pf getenv pkg argv ws fs,
    asks (is_set (getenv (bs "POSIXLY_CORRECT"))) (tl argv) ws fs -> Forall (fun w => ~ parting w) ws ->
    exists b o, (b = true <-> exists a r, argv = a :: r /\ called a (bs "inline-detox")) /\
      granted b (getenv (bs "DETOX_SEQUENCE")) ws o /\
      (In List_sequences ws -> parse_options_getopt pf getenv pkg argv = ([], Ok o)) /\
      (~ In List_sequences ws -> fs = [] -> b = false -> ~ In Inline_mode ws ->
         parse_options_getopt pf getenv pkg argv = (usage_message, Exit 1)) /\
      (~ In List_sequences ws -> fs <> [] \/ b = true \/ In Inline_mode ws ->
         parse_options_getopt pf getenv pkg argv = ([], Ok o) /\ usable_list (o_files o) /\
         items (o_files o) = fs /\ cursor (o_files o) = 0).
Proof. exact wishes_granted. Qed.
Print Assumptions C47_wishes_are_granted.

(** The first wish that ends the program does so with success. *)
Theorem C47_parting_wishes :
  forall pf getenv pkg argv before w after fs,
    asks (is_set (getenv (bs "POSIXLY_CORRECT"))) (tl argv) (before ++ w :: after) fs \/
    mistake (is_set (getenv (bs "POSIXLY_CORRECT"))) (tl argv) (before ++ w :: after) ->
    Forall (fun w => ~ parting w) before -> parting w ->
    snd (parse_options_getopt pf getenv pkg argv) = Exit 0 /\
    (w = Version -> fst (parse_options_getopt pf getenv pkg argv) = pkg ++ [eol]) /\
    (w <> Version -> exists more, fst (parse_options_getopt pf getenv pkg argv) =
       (if inline_bin argv then usage_message_inline else usage_message) ++ more /\ (w = Usage -> more = [])).
Proof. exact parting_wishes. Qed.
Print Assumptions C47_parting_wishes.

(** A mistake leads to the usage text, and to success. *)
Theorem C47_mistakes :
  forall pf getenv pkg argv ws,
    mistake (is_set (getenv (bs "POSIXLY_CORRECT"))) (tl argv) ws -> Forall (fun w => ~ parting w) ws ->
    parse_options_getopt pf getenv pkg argv =
      (if inline_bin argv then usage_message_inline else usage_message, Exit 0).
Proof. exact options_mistake. Qed.
Print Assumptions C47_mistakes.

Definition plain_system (files : str -> file_at) (env : str -> option str) : system :=
  mkSystem (mkEnv files env None None) (bs "C") demo_pf (bs "detox 2.0.0") (fun _ => None).

Definition no_files (_ : str) : file_at := NoFile.
Definition no_env (_ : str) : option str := None.
Definition env_sequence (name : string) (v : str) : option str := if str_eqb v (bs "DETOX_SEQUENCE") then Some (bs name) else None.

Definition words : list string -> list str := map bs.

(** Options in clusters, options after files, the last -s, abbreviated long options. *)
Example C47_example :
  let parse env l := snd (parse_options_getopt demo_pf env (bs "detox 2.0.0") (words l)) in
  let view r := match r with
                | Ok o => Some (o_dry_run o, o_recurse o, o_special o, o_verbose o, o_sequence_name o, items (o_files o))
                | _ => None end in
  view (parse no_env ["/usr/bin/detox"; "a"; "-nrv"; "-sone"; "b"; "-s"; "two"; "--"; "-c"])%string
    = Some (true, true, false, 1%N, Some (bs "two"), words ["a"; "b"; "-c"]%string) /\
  view (parse (env_sequence "three") ["detox"; "--spec"; "-v"; "--dry-run"; "-v"; "a"])%string
    = Some (true, false, true, 2%N, Some (bs "three"), words ["a"]%string) /\
  parse no_env ["detox"; "-r"]%string = Exit 1 /\ parse no_env ["detox"; "-x"; "a"]%string = Exit 0 /\
  parse no_env ["detox"; "a"; "-f"]%string = Exit 0 /\ parse no_env ["detox"; "-Vx"]%string = Exit 0.
Proof. vm_compute. splits; reflexivity. Qed.

(** ** C48 *)

(** A run with a rename comes from a command line without mistakes that names files, and
    neither asks for help, a list, inline mode nor a dry run; and the program is not
    called inline-detox. *)
Theorem C48_what_a_rename_needs :
  forall fuel s argv tr p',
    trace_of (main fuel s argv) tr p' -> Exists is_rename tr ->
    exists ws fs, asks (posix_env s) (tl argv) ws fs /\ fs <> [] /\ Forall (fun w => ~ parting w) ws /\
      ~ In List_sequences ws /\ ~ In Inline_mode ws /\ ~ In Dry_run ws /\
      ~ (exists a r, argv = a :: r /\ called a (bs "inline-detox")).
Proof. exact rename_needs. Qed.
Print Assumptions C48_what_a_rename_needs.

(** Inline mode: every call reads or prints. *)
Theorem C48_inline_reads_and_prints :
  forall fuel s argv tr p' ws fs,
    asks (posix_env s) (tl argv) ws fs ->
    In Inline_mode ws \/ (exists a r, argv = a :: r /\ called a (bs "inline-detox")) ->
    trace_of (main fuel s argv) tr p' -> Forall (fun e => match e with Ev c _ => reads_or_prints c end) tr.
Proof. exact inline_calls. Qed.
Print Assumptions C48_inline_reads_and_prints.

(** With a mistake on the command line the program only prints. *)
Theorem C48_mistakes_only_print :
  forall fuel s argv tr p' ws,
    mistake (posix_env s) (tl argv) ws ->
    trace_of (main fuel s argv) tr p' -> Forall (fun e => match e with Ev c _ => is_print c end) tr.
Proof. exact mistake_prints. Qed.
Print Assumptions C48_mistakes_only_print.

Example C48_example :
  let t := demo_tree [en 1 "a b" 10] in
  let run l := play demo_world (main 9 (plain_system no_files no_env) (words l)) t 3 [] in
  names_of (final (run ["detox"; "a b"]%string)) = [(1, bs "a_b", 10)]%N /\
  names_of (final (run ["detox"; "-L"; "a b"]%string)) = names_of t /\
  names_of (final (run ["inline-detox"; "a b"]%string)) = names_of t /\
  names_of (final (run ["detox"; "--inline"; "a b"]%string)) = names_of t /\
  names_of (final (run ["detox"; "-n"; "a b"]%string)) = names_of t /\
  names_of (final (run ["detox"; "a b"; "-q"]%string)) = names_of t.
Proof. vm_compute. splits; reflexivity. Qed.

(** ** C36 and C39 in the whole program *)

(** Nothing but printing happens unless the configuration has been understood. *)
Theorem C36_nothing_happens_before :
  forall fuel s argv tr p',
    trace_of (main fuel s argv) tr p' -> Exists (fun e => match e with Ev c _ => ~ is_print c end) tr ->
    exists ws fs file printed c, asks (posix_env s) (tl argv) ws fs /\ last_of config_named ws file /\
      config_file_load (m_env s) file = (printed, Ok c).
Proof.
  intros fuel s argv tr p' T X. destruct (touch_started _ _ _ _ _ T X) as (ws & fs & o & c & St).
  destruct (st_config _ _ _ _ _ _ St) as (file & printed & F1 & F2). pose proof (st_asks _ _ _ _ _ _ St) as A.
  exists ws, fs, file, printed, c. auto.
Qed.
Print Assumptions C36_nothing_happens_before.

(** A new name is what the chosen sequence of the loaded configuration makes of the old
    one. *)
Theorem C39_sequence_that_cleans :
  forall fuel s argv tr old new k,
    trace_of (main fuel s argv) tr (Call (Rename old new) k) ->
    exists ws fs file printed c name s0 s1 dir base clean,
      asks (posix_env s) (tl argv) ws fs /\
      last_of config_named ws file /\ config_file_load (m_env s) file = (printed, Ok c) /\
      wanted_sequence s ws name /\ sequence_choose_default (cf_sequences c) name = Some s0 /\
      loaded_with_tables s s0 s1 /\
      last_component old dir base /\ new = dir ++ clean /\
      sequence_run_filters (m_platform s) (Some s1) (Some base) = Ok (Some clean).
Proof. exact main_sequence. Qed.
Print Assumptions C39_sequence_that_cleans.

Definition rc (p : str) : file_at :=
  if str_eqb p (bs "/etc/detoxrc") then Contents (bs "sequence one { lower; }; sequence two { uncgi; };")
  else if str_eqb p (bs "bad") then Contents (bs "sequence one { lower; }")
  else NoFile.

Example C39_program_example :
  let t := demo_tree [en 1 "A%20B" 10] in
  let run env l := names_of (final (play demo_world (main 9 (plain_system rc env) (words l)) t 3 [])) in
  run no_env ["detox"; "A%20B"]%string = [(1, bs "a%20b", 10)]%N /\
  run no_env ["detox"; "A%20B"; "-s"; "two"]%string = [(1, bs "A B", 10)]%N /\
  run (env_sequence "two") ["detox"; "A%20B"]%string = [(1, bs "A B", 10)]%N /\
  run (env_sequence "two") ["detox"; "A%20B"; "-s"; "one"]%string = [(1, bs "a%20b", 10)]%N /\
  run no_env ["detox"; "A%20B"; "-s"; "three"]%string = names_of t /\
  run no_env ["detox"; "A%20B"; "-f"; "bad"]%string = names_of t.
Proof. vm_compute. splits; reflexivity. Qed.

(** ** C56 *)

(** What -L prints: the sequences in force, one of them marked, and the names to ignore;
    then the program ends with success.  A configuration that cannot be read ends it. *)
Theorem C56_list :
  forall fuel s argv ws fs,
    asks (posix_env s) (tl argv) ws fs -> Forall (fun w => ~ parting w) ws -> In List_sequences ws ->
    exists file name, last_of config_named ws file /\ wanted_sequence s ws name /\
      match config_file_load_says (m_env s) file with
      | (said, Ok c) =>
        exists describe entries, (forall f, described f (describe f)) /\
          marked (if existsb is_verbose ws then long_entry describe else short_entry) (cf_sequences c) name entries /\
          main fuel s argv =
          told said (Call (Print Stdout ((if existsb is_verbose ws then paragraphs entries
                                          else bs "available sequences:" ++ [eol] ++ concat entries) ++ ignore_section (cf_ignore c)))
                       (fun _ => Stop (StopExit EXIT_SUCCESS)))
      | (said, Exit n) => main fuel s argv = told said (Stop (StopExit n))
      | (said, UB w) => main fuel s argv = told said (Stop (StopUB w))
      end.
Proof. exact list_mode. Qed.
Print Assumptions C56_list.

(** The marked sequence is the one that would be used for the same command line without
    -L (compare C39_sequence_that_cleans); when there is none to mark, there is none to
    use. *)
Theorem C56_nothing_marked_nothing_used :
  forall entry seqs name, marked entry seqs name (map (entry ""%string) seqs) ->
    (forall s, entry ""%string s <> entry " (*)"%string s) ->
    sequence_choose_default seqs name = None.
Proof. exact unmarked. Qed.
Print Assumptions C56_nothing_marked_nothing_used.

Example C56_example :
  let out l := match main 9 (plain_system rc no_env) (words l) with Call (Print Stdout t) _ => t | _ => [] end in
  out ["detox"; "-L"]%string = bs "available sequences:" ++ [eol] ++ [tab] ++ bs "one (*)" ++ [eol] ++ [tab] ++ bs "two" ++ [eol] /\
  out ["detox"; "-L"; "-s"; "two"]%string = bs "available sequences:" ++ [eol] ++ [tab] ++ bs "one" ++ [eol] ++ [tab] ++ bs "two (*)" ++ [eol] /\
  out ["detox"; "-L"; "-s"; "none"]%string = bs "available sequences:" ++ [eol] ++ [tab] ++ bs "one" ++ [eol] ++ [tab] ++ bs "two" ++ [eol].
Proof. vm_compute. splits; reflexivity. Qed.

(** ** C57 *)

(** The sequences of the built-in configuration that make portable names do so in the
    whole program: every requested new name is portable. *)
Theorem C57_portable_out_of_the_box :
  forall fuel s argv tr old new k,
    trace_of (main fuel s argv) tr (Call (Rename old new) k) ->
    (forall ws fs, asks (posix_env s) (tl argv) ws fs -> last_of config_named ws None /\
       exists name, In name [None; Some (bs "default"); Some (bs "iso8859_1"); Some (bs "iso8859_1-legacy"); Some (bs "utf_8"); Some (bs "uncgi")] /\
         wanted_sequence s ws name) ->
    config_paths (m_env s) = [] -> nonul old -> (strlen old < 2 ^ 50)%N ->
    exists dir base clean, last_component old dir base /\ new = dir ++ clean /\ portable clean.
Proof. exact portable_out_of_the_box. Qed.
Print Assumptions C57_portable_out_of_the_box.

Example C57_example :
  let t := demo_tree [en 1 "-(a) & b?.txt" 10] in
  names_of (final (play demo_world (main 9 (plain_system no_files no_env) (words ["detox"; "-(a) & b?.txt"; "./-(a) & b?.txt"]%string)) t 3 []))
  = names_of t /\
  names_of (final (play demo_world (main 9 (plain_system no_files no_env) (words ["detox"; "./-(a) & b?.txt"]%string)) t 3 []))
  = [(1, bs "a-and_b.txt", 10)]%N.
Proof. vm_compute. splits; reflexivity. Qed.

(** ** C58 *)

(** Whatever the arguments, the environment and the configuration, and wherever the run
    is cut short: nothing has been lost, and a rename is requested only if the source
    exists and the target is free. *)
Theorem C58_program_loses_nothing :
  forall w fuel s argv t tr t' p',
    runs (fs_step w) alone (main fuel s argv) t tr t' p' -> nothing_lost t t'.
Proof. exact main_keeps. Qed.
Print Assumptions C58_program_loses_nothing.

Theorem C58_program_renames_to_free_names :
  forall w fuel s argv t tr t' old new k,
    runs (fs_step w) alone (main fuel s argv) t tr t' (Call (Rename old new) k) ->
    exists i, lstat_inode w t' old = Some i /\
      (lstat_inode w t' new = None \/ lstat_inode w t' new = Some i /\ (st_nlink (stat_of w t' i) <= 1)%N).
Proof.
  intros w fuel s argv t tr t' old new k R. destruct (main_requests _ _ _ _ _ _ _ _ _ _ R) as (ws & fs & o & c & _ & _ & _ & S).
  destruct S as ((_ & H) & _). exact H.
Qed.
Print Assumptions C58_program_renames_to_free_names.

(** With -v, every rename has just been announced. *)
Theorem C58_program_announces :
  forall fuel s argv tr old new k ws fs,
    asks (posix_env s) (tl argv) ws fs -> In Verbose ws ->
    trace_of (main fuel s argv) tr (Call (Rename old new) k) ->
    exists tr', tr = tr' ++ [announced old new].
Proof.
  intros fuel s argv tr old new k ws fs A V T. destruct (main_proper _ _ _ _ _ _ _ T) as (ws' & fs' & o & c & St & _ & H).
  destruct (asks_unique _ _ _ _ _ _ A (st_asks _ _ _ _ _ _ St)) as [-> ->]. auto.
Qed.
Print Assumptions C58_program_announces.

Example C58_example :
  let t := demo_tree [en 1 "a b" 10; en 1 "a  b" 11; en 1 "d" 2; en 2 "x y" 12] in
  let run := play demo_world (main 9 (plain_system no_files no_env) (words ["detox"; "-rv"; "a b"; "a  b"; "d"]%string)) t 3 [Some (bs "x y"); None] in
  names_of (final run) = [(1, bs "a_b", 10); (1, bs "a  b", 11); (1, bs "d", 2); (2, bs "x_y", 12)]%N.
Proof. vm_compute. reflexivity. Qed.

(** ** C59 *)

(** The program reports success when it gets to its end, whatever happened on the way ... *)
Theorem C59_success_at_the_end :
  forall fuel s argv tr n, trace_of (main fuel s argv) tr (Ret n) -> n = 0%N.
Proof. exact main_status. Qed.
Print Assumptions C59_success_at_the_end.

(** ... also if a file could not be renamed. *)
Theorem C59_failures_are_reported_refuted :
  exists w s argv t tr t' old new message,
    runs (fs_step w) alone (main 9 s argv) t tr t' (Ret 0%N) /\
    In (Ev (Rename old new) (Some message)) tr.
Proof.
  pose (t := demo_tree [en 1 "---" 10]).
  pose (run := play demo_world (main 9 (plain_system no_files no_env) (words ["detox"; "--"; "---"]%string)) t 3 []).
  exists demo_world, (plain_system no_files no_env), (words ["detox"; "--"; "---"]%string), t, (trace run), (final run),
    (bs "---"), [], (bs "Operation not permitted").
  split; [apply play_runs; vm_compute; reflexivity|]. vm_compute. auto.
Qed.
Print Assumptions C59_failures_are_reported_refuted.
