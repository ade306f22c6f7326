(** * Properties of the generated scanner and parser (C62-C64) *)

From Verif Require Import Base BaseFacts Stdio Filter Spoof ParseTableSpec ConfigLex ConfigParse ConfigSpec ConfigLexProofs
  ConfigProofs ConfigLoadSpec ParserTables FlexScanner FlexProofs FlexRules BisonParser BisonProofs PropConfig.

Local Open Scope nat_scope.

(** ** C62: src/config_file_lex.c follows src/config_file_lex.l *)

(** Whatever is in the buffer and however the rest of the file arrives: the next action is
    that of the first rule that matches the longest text, or the default action on one byte
    if no rule matches, and the scan goes on right behind that text. *)
Theorem C62_longest_match :
  forall reads y, reads_ok reads -> sound y -> small y -> input y <> [] ->
    exists act text y', yy_round reads y = Ok (M_rule act text, y') /\ sound y' /\ small y' /\
      input y = text ++ input y' /\
      ((exists r, act_rule act = Some r /\ munch (input y) text (input y') r) \/
       (act_rule act = None /\ length text = 1 /\ stray (input y))).
Proof. exact round_rule. Qed.
Print Assumptions C62_longest_match.

(** Calling yylex to the end of a file gives the tokens of the file. *)
Theorem C62_tokens :
  forall reads bytes ts printed y,
    reads_ok reads -> idle y -> (Z.of_nat (length bytes) <= 2 ^ 30 - 2)%Z -> scans bytes ts printed ->
    delivered reads (open_on bytes y) ts printed /\
    forall ts' printed', delivered reads (open_on bytes y) ts' printed' -> ts' = ts /\ printed' = printed.
Proof. exact tokens_delivered. Qed.
Print Assumptions C62_tokens.

(** One byte at a time, and as many as fit: the reader of a regular file. *)
Definition by_one : reader := fun _ _ => 1.
Definition as_many : reader := fun unread max => Nat.min (length unread) (Z.to_nat max).

Theorem readers_ok : reads_ok by_one /\ reads_ok as_many.
Proof.
  split; intros unread max M U; unfold by_one, as_many.
  - split; lia.
  - destruct unread as [|c r]; [contradiction|]. simpl length. split; lia.
Qed.

(** The calls of yylex for the examples. *)
Fixpoint all_tokens (n : nat) (reads : reader) (y : scanner) : list token :=
  match n with
  | O => []
  | S n' => match snd (yylex (lex_fuel y) reads y) with Ok (Some t, y') => t :: all_tokens n' reads y' | _ => [] end
  end.

(** A buffer of 3 bytes that has to grow in the middle of a word; a NUL between tokens; a
    byte that no rule knows; a keyword that turns out to be an identifier, at the end. *)
Example C62_example :
  let y := open_on (bs "sequenceS ""a" ++ [quote; NUL] ++ bs "!remove_trail") (yy_flushed 3 []) in
  all_tokens 5 by_one y = [T_id (bs "sequenceS"); T_qstring (bs "a"); T_id (bs "remove_trail")] /\
  all_tokens 5 as_many y = [T_id (bs "sequenceS"); T_qstring (bs "a"); T_id (bs "remove_trail")].
Proof. vm_compute. auto. Qed.

(** ** C63: src/config_file_yacc.c follows src/config_file_yacc.y *)

(** A file is accepted, with the definitions that are in it, exactly if it follows the
    grammar; otherwise the program exits with a failure.  There is nothing else: no access
    outside the tables, the stacks or the buffer, no value used before it is set. *)
Theorem C63_every_text :
  forall reads files filename lval previous before bytes y,
    reads_ok reads -> idle y -> files filename = Contents bytes -> nonul bytes -> (Z.of_nat (length bytes) <= 2 ^ 30 - 2)%Z ->
    known before previous ->
    exists ts printed, scans bytes ts printed /\
      ((exists ds c y', config_text ts ds /\
          parse_config_file_c reads files filename lval previous y = (printed, Ok (Some c, y')) /\ idle y' /\
          in_force (before ++ map (pair filename) ds) c) \/
       ((forall ds, ~ config_text ts ds) /\ snd (parse_config_file_c reads files filename lval previous y) = Exit EXIT_FAILURE)).
Proof. exact every_text_c. Qed.
Print Assumptions C63_every_text.

(** For all files, also with NUL bytes: the generated code does what the parser of
    ConfigParse.v does, so that C34 to C38, C54 and C55 are about the generated code. *)
Theorem C63_same_as_model :
  forall reads files filename lval previous y, reads_ok reads -> idle y ->
    (forall bytes, files filename = Contents bytes -> (Z.of_nat (length bytes) <= 2 ^ 30 - 2)%Z) ->
    fst (parse_config_file_c reads files filename lval previous y) = fst (parse_config_file files filename previous) /\
    match snd (parse_config_file files filename previous) with
    | Ok c => exists y', snd (parse_config_file_c reads files filename lval previous y) = Ok (c, y') /\ idle y'
    | UB u => snd (parse_config_file_c reads files filename lval previous y) = UB u
    | Exit c => snd (parse_config_file_c reads files filename lval previous y) = Exit c
    end.
Proof. exact parse_config_file_agrees. Qed.
Print Assumptions C63_same_as_model.

Example C63_example :
  let files := one_file "f" ["sequence ""a b"" { lower; utf_8 { filename ""t""; }; max_length { length 7; };"; "}; ignore { filename x; };"]%string in
  option_map (fun c => (map (fun s => (s_name s, s_filters s)) (cf_sequences c), cf_ignore c))
    (match snd (parse_config_file_c by_one files (bs "f") V_unset None yy_created) with Ok (c, _) => c | _ => None end)
  = Some ([(bs "a b", [plain F_lower; mkFilter F_utf_8 (Some (bs "t")) None false 0 None; mkFilter F_max_length None None false 7 None])],
          Some [bs "x"]) /\
  snd (parse_config_file_c as_many (one_file "f" ["sequence x { lower };"]%string) (bs "f") V_unset None yy_created) = Exit EXIT_FAILURE.
Proof. vm_compute. auto. Qed.

(** ** C64: how the bytes arrive does not matter, nor does what was read before *)

Theorem C64_arrival :
  forall files paths paths' previous y y',
    idle y -> idle y' -> map path_of paths = map path_of paths' ->
    Forall (fun x => reads_ok (snd (fst x)) /\ small_file files (path_of x)) paths ->
    Forall (fun x => reads_ok (snd (fst x)) /\ small_file files (path_of x)) paths' ->
    fst (read_all_c files paths previous y) = fst (read_all_c files paths' previous y') /\
    match snd (read_all_c files paths previous y) with
    | Ok (c, _) => exists z, snd (read_all_c files paths' previous y') = Ok (c, z)
    | UB u => snd (read_all_c files paths' previous y') = UB u
    | Exit c => snd (read_all_c files paths' previous y') = Exit c
    end.
Proof. exact read_all_c_same. Qed.
Print Assumptions C64_arrival.

(** A series of files means what C34 says, with one scanner for all of them. *)
Theorem C64_series :
  forall files paths ds, defined_in files (map path_of paths) ds ->
    Forall (fun x => reads_ok (snd (fst x)) /\ small_file files (path_of x)) paths ->
    exists printed c y, read_all_c files paths None yy_created = (printed, Ok (c, y)) /\
      match c with
      | Some c => in_force ds c /\ NoDup (map s_name (cf_sequences c))
      | None => ds = [] /\ forall p, In p (map path_of paths) -> files p = NoFile
      end.
Proof. exact series_result_c. Qed.
Print Assumptions C64_series.

Example C64_example :
  option_map (fun c => (map (fun s => (s_name s, s_filters s, s_source s)) (cf_sequences c), cf_ignore c))
    (match snd (read_all_c two_files [(bs "a", by_one, V_unset); (bs "none", as_many, V_unset); (bs "b", as_many, V_number 3)] None yy_created) with
     | Ok (c, _) => c | _ => None end)
  = option_map (fun c => (map (fun s => (s_name s, s_filters s, s_source s)) (cf_sequences c), cf_ignore c))
    (match snd (read_all two_files [bs "a"; bs "b"] None) with Ok c => c | _ => None end).
Proof. vm_compute. reflexivity. Qed.
