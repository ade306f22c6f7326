(** * Properties of configuration files (C34-C38, C54, C55) *)

From Verif Require Import Base BaseFacts Stdio ParseTableSpec ParseTableProofs Filter Spoof ConfigLex ConfigParse ConfigSpec ConfigLexProofs
  ConfigLayoutProofs ConfigProofs ConfigLoad ConfigLoadSpec ConfigLoadProofs ConfigFiles.

Local Open Scope nat_scope.

(** For the examples. *)
Definition text (ls : list string) : list byte := concat (map (fun l => bs l ++ [newline]) ls).
Definition one_file (path : string) (ls : list string) (p : str) : file_at :=
  if str_eqb p (bs path) then Contents (text ls) else NoFile.

(** ** C34 *)

(** Whatever a series of files defines, the result lists every name once, in the order
    of first definition, with the filters of the last definition and the file that one is
    in, and all the files to ignore in order. *)
Theorem C34_last_definition_wins :
  forall files paths ds, defined_in files paths ds ->
    exists printed c, read_all files paths None = (printed, Ok c) /\
      match c with
      | Some c => in_force ds c /\ NoDup (map s_name (cf_sequences c))
      | None => ds = [] /\ forall p, In p paths -> files p = NoFile
      end.
Proof. exact series_result. Qed.
Print Assumptions C34_last_definition_wins.

(** One more file on top of whatever the files before it defined. *)
Theorem C34_one_more_file :
  forall files filename previous before bytes ts printed ds,
    files filename = Contents bytes -> scans bytes ts printed -> config_text ts ds -> known before previous ->
    exists c, parse_config_file files filename previous = (printed, Ok (Some c)) /\
      in_force (before ++ map (pair filename) ds) c.
Proof. intros. eapply parse_good; eauto. Qed.
Print Assumptions C34_one_more_file.

Definition two_files (p : str) : file_at :=
  if str_eqb p (bs "a") then
    Contents (text ["sequence x { lower; };"; "sequence y { uncgi; };"; "ignore { filename one; };"]%string)
  else if str_eqb p (bs "b") then
    Contents (text ["sequence x { safe; wipeup; };"; "sequence z { lower; };"; "ignore { filename ""two""; };"]%string)
  else NoFile.

Example C34_example :
  option_map (fun c => (map (fun s => (s_name s, map f_cleaner (s_filters s), s_source s)) (cf_sequences c), cf_ignore c))
    (match snd (read_all two_files [bs "a"; bs "missing"; bs "b"] None) with Ok c => c | _ => None end)
  = Some ([(bs "x", [F_safe; F_wipeup], Some (bs "b")); (bs "y", [F_uncgi], Some (bs "a")); (bs "z", [F_lower], Some (bs "b"))],
          Some [bs "one"; bs "two"]).
Proof. vm_compute. reflexivity. Qed.

(** ** C35 *)

(** Any layout of the tokens of a configuration text gives that configuration. *)
Theorem C35_layout_is_free :
  forall files filename previous before ts ds contents,
    config_text ts ds -> layout ts contents -> files filename = Contents contents -> known before previous ->
    exists c, parse_config_file files filename previous = ([], Ok (Some c)) /\
      in_force (before ++ map (pair filename) ds) c.
Proof. intros. eapply parse_good; eauto. now apply layout_scans. Qed.
Print Assumptions C35_layout_is_free.

(** Every configuration can be written: any names without quotes and newlines, any
    filters with any of their options. *)
Theorem C35_everything_can_be_written :
  forall ds, Forall writable_definition ds ->
    exists ts contents, config_text ts ds /\ layout ts contents /\
      forall files filename, files filename = Contents contents ->
        exists c, parse_config_file files filename None = ([], Ok (Some c)) /\ in_force (map (pair filename) ds) c.
Proof. exact everything_written. Qed.
Print Assumptions C35_everything_can_be_written.

(** The tokens of a text are unique, so that a text means one thing only. *)
Theorem C35_one_meaning :
  forall input ts printed ts' printed', scans input ts printed -> scans input ts' printed' -> ts' = ts /\ printed' = printed.
Proof. intros. eapply scans_unique; eauto. Qed.
Print Assumptions C35_one_meaning.

Example C35_example :
  option_map (fun c => (map (fun s => (s_name s, s_filters s)) (cf_sequences c), cf_ignore c))
    (match snd (parse_config_file
        (one_file "f" ["# comment"; "SeQuEnCe""a b#c""{MAX_LENGTH{Length 32 ; };wipeup{remove_trailing;};"; "  utf_8"; "{filename ""/t/x.tbl"";};}; # done"]%string)
        (bs "f") None) with Ok c => c | _ => None end)
  = Some ([(bs "a b#c", [mkFilter F_max_length None None false 32 None; mkFilter F_wipeup None None true 0 None;
                         mkFilter F_utf_8 (Some (bs "/t/x.tbl")) None false 0 None])], Some []).
Proof. vm_compute. reflexivity. Qed.

(** A layout with a comment, letters of both cases and no blanks where none are needed. *)
Example C35_layout_example :
  layout [T_key K_lower; T_eol] (bs "# x" ++ [newline] ++ bs " LoWeR;").
Proof.
  change (bs "# x" ++ [newline] ++ bs " LoWeR;") with
    (("#"%byte :: bs " x" ++ newline :: bs " ") ++ bs "LoWeR" ++ ([] ++ bs ";" ++ [])).
  apply lay_token.
  - apply gap_comment; [vm_compute; intuition discriminate|]. constructor; [auto|constructor].
  - constructor. apply same_text_lower. reflexivity.
  - apply lay_token; [constructor|constructor| |discriminate]. apply lay_end. left. constructor.
  - intros _ c r E. injection E as <- _. intros W. apply wordchar_iff in W. discriminate.
Qed.

(** ** C36 *)

(** For every text without NUL bytes: it has tokens, and either these follow the grammar
    and the result is what they define, or the program exits with failure. *)
Theorem C36_every_text :
  forall files filename previous before bytes,
    files filename = Contents bytes -> nonul bytes -> known before previous ->
    exists ts printed, scans bytes ts printed /\ (forall ts' printed', scans bytes ts' printed' -> ts' = ts /\ printed' = printed) /\
      ((exists ds c, config_text ts ds /\ parse_config_file files filename previous = (printed, Ok (Some c)) /\
                     in_force (before ++ map (pair filename) ds) c) \/
       ((forall ds, ~ config_text ts ds) /\ snd (parse_config_file files filename previous) = Exit EXIT_FAILURE)).
Proof. exact every_text. Qed.
Print Assumptions C36_every_text.

(** The same for texts with NUL bytes anywhere but in quoted strings. *)
Theorem C36_syntax_error_exits :
  forall files filename previous bytes ts printed,
    files filename = Contents bytes -> scans bytes ts printed -> (forall ds, ~ config_text ts ds) ->
    snd (parse_config_file files filename previous) = Exit EXIT_FAILURE.
Proof. exact parse_bad. Qed.
Print Assumptions C36_syntax_error_exits.

(** An error in any file of a series ends the program, whatever the other files say. *)
Theorem C36_error_in_a_series :
  forall files good bad rest ds before previous bytes ts printed,
    defined_in files good ds -> known before previous ->
    files bad = Contents bytes -> scans bytes ts printed -> (forall ds, ~ config_text ts ds) ->
    snd (read_all files (good ++ bad :: rest) previous) = Exit EXIT_FAILURE.
Proof. exact series_error. Qed.
Print Assumptions C36_error_in_a_series.

Example C36_example :
  map (fun l : string => snd (parse_config_file (one_file "f" [l]) (bs "f") None))
    ["sequence x { };"; "sequence x { lower }"; "sequence lower { lower; };"; "ignore { };"; "sequence x { lower; }"]%string
  = repeat (Exit EXIT_FAILURE) 5.
Proof. vm_compute. reflexivity. Qed.

(** ** C37 *)

(** The built-in configuration is that of etc/detoxrc, except for the source it names. *)
Theorem C37_builtin_is_detoxrc :
  forall files filename, files filename = Contents detoxrc ->
    exists c, parse_config_file files filename None = ([], Ok (Some c)) /\
      without_source c = without_source spoof_config_file /\
      Forall (fun s => s_source s = Some filename) (cf_sequences c).
Proof. exact detoxrc_is_builtin. Qed.
Print Assumptions C37_builtin_is_detoxrc.

Example C37_example :
  map (fun s => (s_name s, length (s_filters s))) (cf_sequences spoof_config_file) =
  [(bs "default", 2); (bs "iso8859_1", 3); (bs "iso8859_1-legacy", 4); (bs "utf_8", 3); (bs "uncgi", 3); (bs "lower", 3);
   (bs "iso8859_1-only", 1); (bs "cp1252-only", 1); (bs "utf_8-only", 1); (bs "uncgi-only", 1); (bs "lower-only", 1)].
Proof. vm_compute. reflexivity. Qed.

(** ** C38 *)

(** Without -f: the first system-wide file there is, then the user's files on top of it;
    the built-in configuration if there is none. *)
Theorem C38_which_files :
  forall env,
    config_file_load env None =
    wbind (read_all (e_files env) (config_paths env) None)
      (fun c => match c with Some c => ([], Ok c) | None => ([], Ok spoof_config_file) end).
Proof. exact config_file_load_spec. Qed.
Print Assumptions C38_which_files.

Theorem C38_builtin_without_files :
  forall env, config_paths env = [] -> config_file_load env None = ([], Ok spoof_config_file).
Proof. intros env E. rewrite config_file_load_spec, E. reflexivity. Qed.
Print Assumptions C38_builtin_without_files.

(** With files, what they define. *)
Theorem C38_what_is_in_force :
  forall env ds, config_paths env <> [] -> defined_in (e_files env) (config_paths env) ds ->
    exists printed c, config_file_load env None = (printed, Ok c) /\ in_force ds c.
Proof. exact load_in_force. Qed.
Print Assumptions C38_what_is_in_force.

(** With -f: that file and no other. *)
Theorem C38_explicit_file :
  forall env env' path, e_files env path = e_files env' path ->
    config_file_load env (Some path) = config_file_load env' (Some path).
Proof. intros env env' path E. unfold config_file_load, parse_config_file. now rewrite E. Qed.
Print Assumptions C38_explicit_file.

Theorem C38_explicit_file_missing :
  forall env path, e_files env path = NoFile -> config_file_load env (Some path) = ([], Exit EXIT_FAILURE).
Proof. intros env path E. unfold config_file_load, parse_config_file. now rewrite E. Qed.
Print Assumptions C38_explicit_file_missing.

Theorem C38_explicit_file_read :
  forall env path bytes ts printed ds,
    e_files env path = Contents bytes -> scans bytes ts printed -> config_text ts ds ->
    exists c, config_file_load env (Some path) = (printed, Ok c) /\ in_force (map (pair path) ds) c.
Proof. exact load_explicit. Qed.
Print Assumptions C38_explicit_file_read.

Definition some_env : environment :=
  mkEnv (fun p => if str_eqb p (bs "/usr/local/etc/detoxrc") then Contents (text ["sequence x { lower; };"]%string)
                  else if str_eqb p (bs "/home/u/.detoxrc") then Contents (text ["sequence y { uncgi; };"]%string) else NoFile)
        (fun v => if str_eqb v (bs "HOME") then Some (bs "/home/u") else None) (Some (bs "/opt/etc")) None.

Example C38_example :
  config_paths some_env = [bs "/usr/local/etc/detoxrc"; bs "/home/u/.detoxrc"] /\
  match snd (config_file_load some_env None) with
  | Ok c => map s_name (cf_sequences c) = [bs "x"; bs "y"]
  | _ => False
  end.
Proof. vm_compute. auto. Qed.

(** ** C54 *)

(** A NUL byte within a quoted string makes the scanner look behind the copy of the
    string, whatever else the file contains. *)
Theorem C54_nul_in_string_refuted :
  exists files filename, snd (parse_config_file files filename None) = UB ReadPastEnd.
Proof.
  exists (fun _ => Contents (quote :: bs "ab" ++ [NUL] ++ bs "cd" ++ [quote])), (bs "f"). vm_compute. reflexivity.
Qed.
Print Assumptions C54_nul_in_string_refuted.

Theorem C54_every_nul_in_a_string :
  forall files filename previous s rest,
    files filename = Contents (quote :: s ++ quote :: rest) -> In NUL s -> ~ In quote s -> ~ In newline s ->
    parse_config_file files filename previous = ([], UB ReadPastEnd).
Proof. exact nul_in_string. Qed.
Print Assumptions C54_every_nul_in_a_string.

(** Without NUL bytes nothing of the kind happens. *)
Theorem C54_safe_without_nul :
  forall files filename before previous bytes,
    files filename = Contents bytes -> nonul bytes -> known before previous ->
    forall w, snd (parse_config_file files filename previous) <> UB w.
Proof. exact no_nul_safe. Qed.
Print Assumptions C54_safe_without_nul.

(** ** C55 *)

(** Characters without a meaning are skipped. *)
Theorem C55_noise_is_skipped :
  forall c rest ts printed, noise c -> scans rest ts printed -> scans (c :: rest) ts printed.
Proof. exact (fun c rest ts printed => scan_noise c rest ts printed). Qed.
Print Assumptions C55_noise_is_skipped.

(** So that files full of them are accepted. *)
Theorem C55_rejection_refuted :
  exists files c, snd (parse_config_file files (bs "f") None) = Ok (Some c) /\
    files (bs "f") = Contents (text ["=sequence -x- [ { (lower) ; ++ }, ; !"]%string) /\
    map s_name (cf_sequences c) = [bs "x"].
Proof.
  exists (one_file "f" ["=sequence -x- [ { (lower) ; ++ }, ; !"]%string). eexists. split; [vm_compute; reflexivity|].
  split; reflexivity.
Qed.
Print Assumptions C55_rejection_refuted.

Example C55_example : noise "-"%byte /\ noise x0d /\ noise NUL /\ noise xc3.
Proof.
  assert (H : forall c, is_word c = false ->
            ~ In c [x09; x20; newline; "#"%byte; "{"%byte; "}"%byte; ";"%byte; quote] -> noise c).
  { intros c W N. split; [|exact N]. intros X. apply wordchar_iff in X. congruence. }
  splits; apply H; try reflexivity; vm_compute; intuition discriminate.
Qed.
