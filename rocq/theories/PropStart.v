(** * Properties of what the program says while it starts (C82) *)

From Verif Require Import Base BaseFacts Stdio Table Filter Spoof Filelist File Prog ProgFacts ConfigLex ConfigParse ConfigSpec ConfigLoad ConfigLoadSpec
  CleanString Options OptionsSpec Startup Main MainSpec MainProofs Warnings GenSpec CheckSpec StartSpec StartProofs5.

Local Open Scope nat_scope.

(** ** C82 *)

(** Every start opens in exactly one way: the command line, the files and the tables say
    what is printed, and whether the program gives up. *)
Theorem C82_every_start :
  forall s argv, exists said e, opens s argv said e /\ forall said' e', opens s argv said' e' -> said' = said /\ e' = e.
Proof.
  intros s argv. destruct (opens_exists s argv) as (said & e & O). exists said, e. split; [exact O|].
  intros said' e' O'. exact (opens_one _ _ _ _ _ _ O' O).
Qed.
Print Assumptions C82_every_start.

(** If it gives up, then that is all that happens. *)
Theorem C82_giving_up :
  forall s argv said w, opens s argv said (Over w) -> forall fuel tr,
    (forall w', trace_of (main fuel s argv) tr (Stop w') <-> tr = map heard said /\ w' = w) /\
    (forall n, ~ trace_of (main fuel s argv) tr (Ret n)).
Proof. exact over_traces. Qed.
Print Assumptions C82_giving_up.

(** If it sets to work, it has said exactly this before. *)
Theorem C82_setting_to_work :
  forall s argv said ws fs c, opens s argv said (Work ws fs c) -> exists o, started s argv ws fs o c /\
    forall fuel tr p, trace_of (main fuel s argv) tr p ->
      (exists said1 said2, said = said1 ++ said2 /\ tr = map heard said1) \/
      (exists tr', tr = map heard said ++ tr' /\ trace_of (work fuel o fs (o_files_to_ignore o)) tr' p).
Proof. exact work_traces. Qed.
Print Assumptions C82_setting_to_work.

(** The line in a complaint about the file named on the command line is that of the token
    complained about, unless a string has been left open. *)
Theorem C82_line_number :
  forall env path bytes said w, e_files env path = Contents bytes -> configured env (Some path) said (Gives_up w) ->
    Forall (fun x => fst x = Stderr) said ->
    w = StopUB ReadPastEnd \/
    exists before after text line, bytes = before ++ text ++ after /\ in_decimal (1 + newlines before) line /\
      said = syntax_error path line text.
Proof. exact named_line. Qed.
Print Assumptions C82_line_number.

Definition sample_files (home etc tbl : option str) (path : str) : file_at :=
  let give x := match x with Some bytes => Contents bytes | None => NoFile end in
  if str_eqb path (bs "/home/u/.detoxrc") then give home
  else if str_eqb path (bs "/etc/detoxrc") then give etc
  else if str_eqb path (bs "/t/my.tbl") then give tbl
  else NoFile.

Definition sample (home etc tbl : option str) : system :=
  mkSystem (mkEnv (sample_files home etc tbl) (fun v => if str_eqb v (bs "HOME") then Some (bs "/home/u") else None) None None)
    (bs "C") (mkPlatform true c_locale) (bs "detox 2.0.0")
    (fun path => if str_eqb path (bs "/t/secret.tbl") then Some (bs "Permission denied") else None).

Definition argl : list string -> list str := map bs.
Definition nl : str := [newline].

(** Mistakes on the command line. *)
Example C82_command_line :
  let s := sample None None None in
  opens s (argl ["/usr/bin/detox/"; "-nq"; "a"]%string)
    (on_stderr (bs "/usr/bin/detox: invalid option -- 'q'") ++ [(Stdout, usage_message)]) (Over (StopExit 0)) /\
  opens s (argl ["detox"; "a"; "-f"]%string)
    (on_stderr (bs "detox: option requires an argument -- 'f'") ++ [(Stdout, usage_message)]) (Over (StopExit 0)) /\
  opens s (argl ["detox"; "--he=1"]%string)
    (on_stderr (bs "detox: option '--help' doesn't allow an argument") ++ [(Stdout, usage_message)]) (Over (StopExit 0)) /\
  opens s (argl ["detox"; "-r"]%string) [(Stdout, usage_message)] (Over (StopExit 1)) /\
  opens s (argl ["inline-detox"; "-V"]%string) [(Stdout, bs "detox 2.0.0" ++ nl)] (Over (StopExit 0)).
Proof. intros; splits; apply opens_by_running; vm_compute; reflexivity. Qed.

(** Configuration files: one that is not there, a token out of place, the end of the file,
    no sequence of the name asked for and no default. *)
Example C82_configuration :
  let rc := bs "# names" ++ nl ++ bs "sequence ""mine"" {" ++ nl ++ bs "  lower ;" ++ nl ++ bs "};" ++ nl in
  opens (sample None None None) (argl ["detox"; "-f"; "/x"; "a"]%string) (on_stderr (bs "detox: unable to open: /x")) (Over (StopExit 1)) /\
  opens (sample (Some (rc ++ bs "sequence mine lower")) None None) (argl ["detox"; "-f"; "/home/u/.detoxrc"; "a"]%string)
    (syntax_error (bs "/home/u/.detoxrc") (bs "5") (bs "lower")) (Over (StopExit 1)) /\
  opens (sample (Some (rc ++ bs "sequence ")) None None) (argl ["detox"; "a"]%string)
    (syntax_error (bs "/home/u/.detoxrc") (bs "5") []) (Over (StopExit 1)) /\
  opens (sample (Some rc) None None) (argl ["detox"; "-s"; "nosuch"; "-f"; "/home/u/.detoxrc"; "a"]%string)
    (on_stderr (bs "detox: no sequence to work with")) (Over (StopExit 1)).
Proof. intros; splits; apply opens_by_running; vm_compute; reflexivity. Qed.

(** Tables: no such builtin, not permitted, and a row that is refused. *)
Example C82_tables :
  let with_table kind table := sample (Some (bs "sequence default { safe { " ++ kind ++ bs " """ ++ bs table ++ bs """; }; };")) None in
  let argv := argl ["detox"; "a"]%string in
  opens (with_table (bs "builtin") "nosuch"%string None) argv
    (on_stderr (bs "detox: unable to locate builtin table ""nosuch""")) (Over (StopExit 1)) /\
  opens (with_table (bs "filename") "/t/secret.tbl"%string None) argv
    (on_stderr (bs "Unable to open translation table: Permission denied") ++
     on_stderr (bs "detox: unable to parse file: ""/t/secret.tbl""")) (Over (StopExit 1)) /\
  opens (with_table (bs "filename") "/t/my.tbl"%string (Some (bs "start" ++ nl ++ bs "0x41 B" ++ nl ++ bs "0 zero" ++ nl ++ bs "end" ++ nl))) argv
    (on_stderr (bs "Failed to add row 0x0000 ""zero"" to translation table") ++
     on_stderr (bs "detox: unable to parse file: ""/t/my.tbl""")) (Over (StopExit 1)).
Proof. intros; splits; apply opens_by_running; vm_compute; reflexivity. Qed.

(** The lines of files read earlier are counted as well: the only line of a file is called
    its fourth. *)
Theorem C82_line_after_earlier_file_refuted :
  exists s argv, e_files (m_env s) (bs "/home/u/.detoxrc") = Contents (bs "}") /\
    opens s argv (syntax_error (bs "/home/u/.detoxrc") (bs "4") (bs "}")) (Over (StopExit 1)).
Proof.
  exists (sample (Some (bs "}")) (Some (bs "sequence ""default"" {" ++ nl ++ bs "  safe;" ++ nl ++ bs "};" ++ nl)) None), (argl ["detox"; "a"]%string).
  split; [reflexivity|]. apply opens_by_running. vm_compute. reflexivity.
Qed.
Print Assumptions C82_line_after_earlier_file_refuted.

(** The end of a line in a string is not counted: what stands on the second line is said
    to be on the first. *)
Theorem C82_line_after_open_string_refuted :
  exists s argv said, e_files (m_env s) (bs "/home/u/.detoxrc") = Contents (bs "sequence ""abc" ++ nl ++ bs "{ ;") /\
    opens s argv (said ++ syntax_error (bs "/home/u/.detoxrc") (bs "1") (bs ";")) (Over (StopExit 1)).
Proof.
  exists (sample (Some (bs "sequence ""abc" ++ nl ++ bs "{ ;")) None None), (argl ["detox"; "a"]%string),
    [(Stdout, bs "Unterminated character string" ++ nl)].
  split; [reflexivity|]. apply opens_by_running. vm_compute. reflexivity.
Qed.
Print Assumptions C82_line_after_open_string_refuted.
