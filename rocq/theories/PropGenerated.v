(** * Properties of the configuration as read by the generated code, with messages (C86) *)

From Verif Require Import Base BaseFacts Stdio Filter Spoof SequenceSpec ConfigLex ConfigSpec ConfigParse ConfigLoad ConfigLoadSpec
  Startup Main StartSpec BisonParser BisonProofs Generated GeneratedProofs PropGenParser PropMain PropStart.
From Verif Require Import Prog Warnings.

Local Open Scope nat_scope.

(** ** C86 *)

(** However the bytes of the files arrive, the generated scanner and parser say exactly what
    is to be said about the configuration: where the first mistake is and at which token, or
    nothing but what is unterminated. *)
Theorem C86_messages :
  forall arr env file said e, arrives arr env -> configured env file said e ->
    match e with
    | Goes_on _ => exists c, config_file_load_generated arr env file = (said, Ok c) /\ snd (config_file_load env file) = Ok c
    | Gives_up (StopExit n) => config_file_load_generated arr env file = (said, Exit n)
    | Gives_up (StopUB u) => config_file_load_generated arr env file = (said, UB u)
    | Gives_up StopFuel => False
    end.
Proof. exact configured_generated. Qed.
Print Assumptions C86_messages.

(** So C82 holds for it: the line in a complaint about the named file is that of the token
    complained about. *)
Theorem C86_line_number :
  forall arr env path bytes said r, arrives arr env -> e_files env path = Contents bytes ->
    config_file_load_generated arr env (Some path) = (said, Exit r) -> Forall (fun x => fst x = Stderr) said ->
    r = 1%N /\ exists before after text line, bytes = before ++ text ++ after /\ in_decimal (1 + newlines before) line /\
      said = syntax_error path line text.
Proof. exact generated_line. Qed.
Print Assumptions C86_line_number.

(** It is the program of Startup.v, whatever the files hold. *)
Theorem C86_same_as_model :
  forall arr env file, arrives arr env -> config_file_load_generated arr env file = config_file_load_says env file.
Proof. exact load_generated. Qed.
Print Assumptions C86_same_as_model.

(** Byte by byte and all at once: a token out of place on the fifth line; the end of a file
    that is read after another one; a string that is not closed. *)
Example C86_example :
  let by_bytes := mkArrival (fun _ => by_one) (fun _ => V_number 7) in
  let at_once := mkArrival (fun _ => as_many) (fun _ => V_unset) in
  let rc := bs "# names" ++ nl ++ bs "sequence ""mine"" {" ++ nl ++ bs "  lower ;" ++ nl ++ bs "};" ++ nl in
  let home := bs "/home/u/.detoxrc" in
  let env := m_env (sample (Some (rc ++ bs "sequence mine lower")) None None) in
  let two := m_env (sample (Some (bs "sequence ")) (Some rc) None) in
  let open_string := m_env (sample (Some (bs "sequence ""abc" ++ nl ++ bs "{ lower; };")) None None) in
  config_file_load_generated by_bytes env (Some home) = (syntax_error home (bs "5") (bs "lower"), Exit 1) /\
  config_file_load_generated at_once env (Some home) = (syntax_error home (bs "5") (bs "lower"), Exit 1) /\
  config_file_load_generated by_bytes two None = (syntax_error home (bs "5") [], Exit 1) /\
  fst (config_file_load_generated by_bytes open_string None) = [(Stdout, bs "Unterminated character string" ++ nl)] /\
  (exists c, snd (config_file_load_generated by_bytes open_string None) = Ok c /\ map s_name (cf_sequences c) = [bs "abc" ++ nl]).
Proof. intros; splits; try (vm_compute; reflexivity). eexists. split; [vm_compute; reflexivity|reflexivity]. Qed.
