(** * Properties of complete runs (C65-C69) *)

From Verif Require Import Base BaseFacts CleanString CleanSpec Utf8Spec Filter Spoof SequenceSpec SequenceProofs Filelist FilelistProofs
  Prog ProgFacts File FS FileSpec FileProofs Play ConfigParse ConfigLoad ConfigLoadSpec Options OptionsSpec ConfigLex Startup Main MainSpec
  RunSpec RunProofs RunProofs2 RunProofs3 PropSequence PropFile PropMain.

Local Open Scope nat_scope.

(** ** C65 *)

(** One file: these are the calls, and no others are possible. *)
Theorem C65_one_file :
  forall o p tr q, o_sequence_to_use o <> None -> trace_of (parse_file p o) tr (Ret q) <-> file_done o p tr q.
Proof. intros o p tr q H. split; [apply file_forward | now apply file_backward]. Qed.
Print Assumptions C65_one_file.

(** The work on a list of arguments. *)
Theorem C65_work :
  forall o files ign tr, o_sequence_to_use o <> None -> usable_list ign ->
    (exists fuel ign', trace_of (process_arguments fuel o files ign) tr (Ret ign')) <->
    (exists k, arguments_done o (items ign) (cursor ign) files tr k).
Proof. exact work_done. Qed.
Print Assumptions C65_work.

(** The whole program: either no run ever returns, or the complete runs are known. *)
Theorem C65_program :
  forall s argv,
    (forall fuel tr n, ~ trace_of (main fuel s argv) tr (Ret n)) \/
    (exists ws fs o c said, started s argv ws fs o c /\
       prelude s ws c said /\
       (o_is_inline_mode o = false -> forall tr n,
         (exists fuel, trace_of (main fuel s argv) tr (Ret n)) <->
         n = EXIT_SUCCESS /\ exists tr2 k, tr = map heard said ++ tr2 /\ arguments_done o (ignored c) 0 fs tr2 k)).
Proof. exact program_runs. Qed.
Print Assumptions C65_program.

(** The bound that the model puts on the work: it cannot be reached with fewer calls than
    the bound, and with fewer calls than the bound nothing depends on it. *)
Theorem C65_bound_is_not_reached :
  forall fuel o files ign tr, trace_of (process_arguments fuel o files ign) tr (Stop StopFuel) -> fuel <= length tr.
Proof. exact work_fuel. Qed.
Print Assumptions C65_bound_is_not_reached.

Theorem C65_bound_does_not_matter :
  forall f1 f2 s argv tr p',
    trace_of (main f1 s argv) tr p' -> length tr < f1 -> length tr < f2 ->
    exists q', trace_of (main f2 s argv) tr q' /\ head q' = head p'.
Proof.
  intros f1 f2 s argv tr p' T L1 L2. apply (agree_trace (S (length tr)) (main f1 s argv)); [now apply main_agree|lia|exact T].
Qed.
Print Assumptions C65_bound_does_not_matter.

Definition asked_for (tr : list event) : list call := map (fun e => match e with Ev c _ => c end) tr.

(** A directory with a file, a hidden file and a subdirectory, verbosely. *)
Definition demo_run (o : options_t) : list event * tree * prog (option filelist) :=
  play demo_world (process_arguments 9 o [bs "d"; bs "gone"] None)
    (demo_tree [en 1 "d" 2; en 2 "x y" 11; en 2 "s d" 3; en 3 "p" 10]) 3
    [Some (bs ".h h"); Some (bs "x y"); Some (bs "s d"); Some (bs "p"); None; None].

Example C65_example :
  let o := demo_options false true false 1 in
  asked_for (trace (demo_run o)) =
    [Print Stdout (bs "Scanning: d" ++ [Nb 10]); Lstat (bs "d");
     Lstat (bs "d"); Opendir (bs "d"); Readdir 3; Readdir 3;
     Lstat (bs "d/x y"); Lstat (bs "d/x y"); Lstat (bs "d/x_y"); Print Stdout (bs "d/x y -> d/x_y" ++ [Nb 10]);
     Rename (bs "d/x y") (bs "d/x_y");
     Readdir 3; Lstat (bs "d/s d"); Lstat (bs "d/s d"); Lstat (bs "d/s_d"); Print Stdout (bs "d/s d -> d/s_d" ++ [Nb 10]);
     Rename (bs "d/s d") (bs "d/s_d");
     Lstat (bs "d/s_d"); Opendir (bs "d/s_d"); Readdir 4; Lstat (bs "d/s_d/p"); Readdir 4; Closedir 4;
     Readdir 3; Closedir 3;
     Print Stdout (bs "Scanning: gone" ++ [Nb 10]); Lstat (bs "gone");
     Print Stderr (bs "gone: No such file or directory" ++ [Nb 10])] /\
  exists k, arguments_done o [] 0 [bs "d"; bs "gone"] (trace (demo_run o)) k.
Proof.
  split; [vm_compute; reflexivity|].
  apply (C65_work (demo_options false true false 1) [bs "d"; bs "gone"] None); [discriminate|constructor|].
  exists 9, None. eapply runs_trace. apply (play_runs demo_world). vm_compute. reflexivity.
Qed.

(** ** C66 *)

(** readdir and closedir are called with the directory opened last and not yet closed. *)
Theorem C66_innermost_directory :
  forall fuel s argv tr c k, trace_of (main fuel s argv) tr (Call c k) ->
    match c with
    | Readdir h | Closedir h => exists p outer, still_open tr [] = (p, h) :: outer
    | _ => True
    end.
Proof. exact program_innermost. Qed.
Print Assumptions C66_innermost_directory.

(** A run that returns has closed every directory that it opened. *)
Theorem C66_all_closed :
  forall fuel s argv tr n, trace_of (main fuel s argv) tr (Ret n) -> still_open tr [] = [].
Proof. exact program_closes. Qed.
Print Assumptions C66_all_closed.

Example C66_example :
  let tr := trace (demo_run (demo_options false true false 0)) in
  still_open (firstn 16 tr) [] = [(bs "d/s_d", 4%N); (bs "d", 3%N)] /\
  nth_error (asked_for tr) 16 = Some (Readdir 4) /\
  still_open (firstn 21 tr) [] = [(bs "d", 3%N)] /\ nth_error (asked_for tr) 21 = Some (Closedir 3) /\
  still_open tr [] = [].
Proof. vm_compute. splits; reflexivity. Qed.

(** ** C67 *)

(** Every call of the working program is one of these, with these texts. *)
Theorem C67_what_is_asked_and_said :
  forall fuel s argv tr p', trace_of (main fuel s argv) tr p' ->
    Exists (fun e => match e with Ev c _ => ~ is_print c end) tr ->
    exists ws fs o c said, started s argv ws fs o c /\
      prelude s ws c said /\
      (o_is_inline_mode o = false ->
       exists tr2, tr = map heard said ++ tr2 /\ Forall (fun e => match e with Ev c _ => asked o fs c end) tr2 /\
         forall c k, p' = Call c k -> asked o fs c).
Proof. exact program_asks. Qed.
Print Assumptions C67_what_is_asked_and_said.

(** Without -v and -n nothing is printed on standard output but a message for every
    unterminated string in the configuration. *)
Theorem C67_silence :
  forall fuel s argv ws fs tr p' text, trace_of (main fuel s argv) tr p' ->
    Exists (fun e => match e with Ev c _ => ~ is_print c end) tr ->
    asks (posix_env s) (tl argv) ws fs -> existsb is_verbose ws = false -> ~ In Dry_run ws -> ~ In Inline_mode ws ->
    ~ (exists a r, argv = a :: r /\ called a (bs "inline-detox")) ->
    In (Ev (Print Stdout text) tt) tr ->
    text = unterminated /\ exists file c said, last_of config_named ws file /\
      config_file_load_says (m_env s) file = (said, Ok c) /\ In (Stdout, text) said.
Proof. exact program_silent. Qed.
Print Assumptions C67_silence.

Example C67_example :
  let t := demo_tree [en 1 "a b" 10; en 1 "c d" 12; en 1 "c_d" 13] in
  let run l := filter (fun c => match c with Print _ _ => true | _ => false end)
                 (asked_for (trace (play demo_world (main 9 (plain_system no_files no_env) (words l)) t 3 []))) in
  run ["detox"; "a b"; "c d"; "e"]%string =
    [Print Stderr (bs "Cannot rename c d to c_d: file already exists" ++ [Nb 10]);
     Print Stderr (bs "e: No such file or directory" ++ [Nb 10])] /\
  run ["detox"; "-n"; "a b"]%string = [Print Stdout (bs "a b -> a_b" ++ [Nb 10])] /\
  run ["detox"; "-v"; "a b"]%string = [Print Stdout (bs "Scanning: a b" ++ [Nb 10]); Print Stdout (bs "a b -> a_b" ++ [Nb 10])].
Proof. vm_compute. splits; reflexivity. Qed.

(** ** C68 *)

(** In a run that returns, every name that readdir returned, unless hidden or listed, was
    looked at, and according to its kind cleaned and entered, before the next one. *)
Theorem C68_nothing_is_left_out :
  forall fuel s argv tr n before h name after,
    trace_of (main fuel s argv) tr (Ret n) -> tr = before ++ Ev (Readdir h) (Some name) :: after -> ~ hidden name ->
    exists ws fs o c, started s argv ws fs o c /\
      (~ In name (ignored c) ->
       exists top outer, still_open before [] = (top, h) :: outer /\ entry_served o (ignored c) top name after).
Proof. exact program_serves. Qed.
Print Assumptions C68_nothing_is_left_out.

Example C68_example :
  let o := demo_options false true false 0 in
  let tr := trace (demo_run o) in
  let before := firstn 9 tr in
  nth_error tr 9 = Some (Ev (Readdir 3) (Some (bs "s d"))) /\ still_open before [] = [(bs "d", 3%N)] /\
  firstn 9 (skipn 10 (asked_for tr)) =
    [Lstat (bs "d/s d"); Lstat (bs "d/s d"); Lstat (bs "d/s_d"); Rename (bs "d/s d") (bs "d/s_d"); Lstat (bs "d/s_d");
     Opendir (bs "d/s_d"); Readdir 4; Lstat (bs "d/s_d/p"); Readdir 4].
Proof. vm_compute. splits; reflexivity. Qed.

(** ** C69 *)

(** What ends the work before all arguments are done: opendir lacking file descriptors, or
    the cleaning of a name that was met (or, in the model, its bound). *)
Theorem C69_what_ends_the_work :
  forall (S : Type) (step : S -> forall c, answer c -> S -> Prop) (interference : S -> S -> Prop) fuel sy argv s tr s' w,
    honest_names step -> runs step interference (main fuel sy argv) s tr s' (Stop w) ->
    Exists (fun e => match e with Ev c _ => ~ is_print c end) tr ->
    exists ws fs o c, started sy argv ws fs o c /\
      (o_is_inline_mode o = false ->
       w = StopFuel \/ (w = StopExit EXIT_FAILURE /\ out_of_descriptors tr) \/
       exists base, name_met fs tr base /\ cleaning_fails o base w).
Proof. intros S. exact program_early. Qed.
Print Assumptions C69_what_ends_the_work.

(** With the built-in configuration and its sequences, only the lack of file descriptors:
    no name, file or directory makes the program give up. *)
Theorem C69_out_of_the_box :
  forall (S : Type) (step : S -> forall c, answer c -> S -> Prop) (interference : S -> S -> Prop) fuel sy argv s tr s' w,
    honest_names step -> runs step interference (main fuel sy argv) s tr s' (Stop w) ->
    Exists (fun e => match e with Ev c _ => ~ is_print c end) tr ->
    config_paths (m_env sy) = [] ->
    (forall ws fs, asks (posix_env sy) (tl argv) ws fs ->
       last_of config_named ws None /\ ~ In Inline_mode ws /\ ~ (exists a r, argv = a :: r /\ called a (bs "inline-detox")) /\
       (exists name, In name [None; Some (bs "default"); Some (bs "iso8859_1"); Some (bs "iso8859_1-legacy"); Some (bs "utf_8");
                              Some (bs "uncgi"); Some (bs "lower")] /\ wanted_sequence sy ws name /\
         (name = Some (bs "lower") -> p_ctype (m_platform sy) = c_locale) /\
         (name = Some (bs "utf_8") -> forall base u, name_met fs tr base -> infix u base -> ~ overlong_nul u)) /\
       Forall (fun f => nonul f /\ (strlen f < 2 ^ 50)%N) fs) ->
    w = StopFuel \/ (w = StopExit EXIT_FAILURE /\ out_of_descriptors tr).
Proof. intros S. exact out_of_the_box. Qed.
Print Assumptions C69_out_of_the_box.

(** Everything is a directory, and no directory can be opened for lack of descriptors. *)
Definition poor (c : call) : option (answer c) :=
  match c return option (answer c) with
  | Lstat _ => Some (inl {| st_kind := SDir; st_dev := 1; st_ino := 2; st_nlink := 2 |})
  | Opendir _ => Some (NotOpened true (bs "Too many open files"))
  | Print _ _ => Some tt
  | _ => None
  end.

Fixpoint ask {A} (system : forall c, option (answer c)) (p : prog A) : list event * prog A :=
  match p with
  | Call c k => match system c with
                | Some r => (Ev c r :: fst (ask system (k r)), snd (ask system (k r)))
                | None => ([], p)
                end
  | _ => ([], p)
  end.

Lemma ask_trace {A} system (p : prog A) : trace_of p (fst (ask system p)) (snd (ask system p)).
Proof.
  unfold trace_of. induction p as [a|w|c k IH]; cbn [ask fst snd]; try apply runs_here.
  destruct (system c) as [r|]; [|apply runs_here]. cbn [fst snd]. apply (runs_call _ _ _ _ tt tt r tt); [reflexivity|exact I|apply IH].
Qed.

(** The second argument is not worked on. *)
Example C69_example :
  let p := main 9 (plain_system no_files no_env) (words ["detox"; "d"; "a b"]%string) in
  asked_for (fst (ask poor p)) =
    [Lstat (bs "d"); Lstat (bs "d"); Opendir (bs "d"); Print Stderr (bs "unable to parse: Too many open files" ++ [Nb 10])] /\ snd (ask poor p) = Stop (StopExit EXIT_FAILURE) /\ out_of_descriptors (fst (ask poor p)).
Proof. vm_compute. splits; try reflexivity. eexists [_; _], (bs "d"), (bs "Too many open files"). reflexivity. Qed.
