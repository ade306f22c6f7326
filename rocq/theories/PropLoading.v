(** * Properties of loading the configuration in memory (C92) *)

From Verif Require Import Base BaseFacts Stdio Filter Spoof ConfigSpec ConfigLex ConfigParse ConfigProofs ConfigLoad ConfigLoadSpec Prog Warnings Startup StartProofs
  Mem MemSpec Words WordsSpec CFilelist FilesSpec CConfig LinkedSpec CLoad CLoadSpec CLoadProofs5 PropLinked.

Local Open Scope nat_scope.

(** ** C92 *)

(** Without an option config_file_load does in memory what its description does on lists, for
    all files, values of the environment and memories: what is printed, the end, the
    configuration.  Other memory stays as it is. *)
Theorem C92_config_file_load :
  forall (al : allocator) literal env s,
    literals_in (s_heap s) literal the_literals -> orderly env ->
    follows (within s (loading_room env))
      (fun h n => within s (loading_room env) h n /\ exists path, In path (candidates env) /\ e_files env path <> NoFile /\ for_text (contents_of (e_files env path)) n)
      (fun c p s' => exists lost, loads s lost (loading_room env) c p s')
      (config_file_load_says env None) (c_config_file_load literal env None s).
Proof. intros al. exact search_in_memory. Qed.
Print Assumptions C92_config_file_load.

(** With the name of a file it does so too, but the copy of the name is lost. *)
Theorem C92_named :
  forall (al : allocator) literal env q path s,
    cstr_at (s_heap s) q path -> moderate path (contents_of (e_files env path)) [] ->
    exists lost, 0 < lost /\
      follows (within s (length path + 1 + reading_room path (contents_of (e_files env path)) []))
        (fun h n => within s (length path + 1 + reading_room path (contents_of (e_files env path)) []) h n /\ for_text (contents_of (e_files env path)) n)
        (loads s lost (length path + 1 + reading_room path (contents_of (e_files env path)) []))
        (config_file_load_says env (Some path)) (c_config_file_load literal env (Some q) s).
Proof. intros al. exact named_in_memory. Qed.
Print Assumptions C92_named.

(** If that file is accepted, its definitions are in force, and lost are that copy, the
    strings of the scanner, and what the file replaces in itself. *)
Theorem C92_accepted :
  forall (al : allocator) literal env q path contents ts ds printed s,
    cstr_at (s_heap s) q path -> e_files env path = Contents contents -> moderate path contents [] ->
    scans contents ts printed -> config_text ts ds ->
    exists said c, stdout_of said = printed /\ in_force (map (pair path) ds) c /\
      follows (within s (length path + 1 + reading_room path contents []))
        (fun h n => within s (length path + 1 + reading_room path contents []) h n /\ for_text contents n)
        (fun _ p s' => exists own, loaded_at s' p c own /\ evolves [] own (1 + strings ts + replaced_within ds) s s')
        (said, Ok tt) (c_config_file_load literal env (Some q) s).
Proof. intros al. exact accepted_in_memory. Qed.
Print Assumptions C92_accepted.

(** Without any file the built-in configuration is in memory, and nothing is lost; or there
    was no memory for it, which is reported. *)
Theorem C92_built_in :
  forall (al : allocator) literal env s,
    literals_in (s_heap s) literal the_literals -> orderly env -> (forall p, In p (candidates env) -> e_files env p = NoFile) ->
    (exists p s', c_config_file_load literal env None s = done (p, s') /\ loads s 0 (256 + 5 * 168 + 2048) spoof_config_file p s') \/
    (exists h n message, refusal_of h n = Some message /\ within s (256 + 5 * 168 + 2048) h n /\
       c_config_file_load literal env None s = ([(Stderr, no_memory_left message)], Exit EXIT_FAILURE)).
Proof. intros al. exact built_in_memory. Qed.
Print Assumptions C92_built_in.

(** With enough memory there is no other outcome. *)
Theorem C92_enough :
  forall (al : allocator) literal env s,
    literals_in (s_heap s) literal the_literals -> orderly env -> (forall h n, within s (loading_room env) h n -> refusal_of h n = None) ->
    match config_file_load_says env None with
    | (said, Ok c) => exists p s' lost, c_config_file_load literal env None s = (said, Ok (p, s')) /\ loads s lost (loading_room env) c p s'
    | (said, Exit n) => c_config_file_load literal env None s = (said, Exit n)
    | (said, UB w) => c_config_file_load literal env None s = (said, UB w)
    end.
Proof. intros al. exact search_enough. Qed.
Print Assumptions C92_enough.

Theorem C92_named_enough :
  forall (al : allocator) literal env q path s,
    cstr_at (s_heap s) q path -> moderate path (contents_of (e_files env path)) [] ->
    (forall h n, within s (length path + 1 + reading_room path (contents_of (e_files env path)) []) h n -> refusal_of h n = None) ->
    match config_file_load_says env (Some path) with
    | (said, Ok c) => exists p s' lost, c_config_file_load literal env (Some q) s = (said, Ok (p, s')) /\ 0 < lost /\
        loads s lost (length path + 1 + reading_room path (contents_of (e_files env path)) []) c p s'
    | (said, Exit n) => c_config_file_load literal env (Some q) s = (said, Exit n)
    | (said, UB w) => c_config_file_load literal env (Some q) s = (said, UB w)
    end.
Proof. intros al. exact named_enough. Qed.
Print Assumptions C92_named_enough.

(** ** Examples *)

(** The string literals, and a name. *)
Definition string_literals : store_t := mkStore (map string_block (the_literals ++ [bs "b"])) (fun _ => []).
Fixpoint index (x : str) (l : list str) : nat := match l with [] => 0 | y :: l => if str_eqb x y then 0 else S (index x l) end.
Definition literal_at (x : str) : ptr := mkPtr (index x the_literals) 0.

Example C92_literals : literals_in (s_heap string_literals) literal_at the_literals.
Proof.
  intros x I. cbn [the_literals map In] in I.
  repeat (destruct I as [<-|I]; [match goal with |- cstr_at _ _ ?t => exists (map Some t ++ [Some NUL]), [] end; splits; [reflexivity|reflexivity|now apply nonul_dec]|]). destruct I.
Qed.

Fixpoint sequence_list (fuel : nat) (p : option ptr) : wmem (list (str * option ptr)) :=
  match fuel, p with
  | S fuel, Some p =>
    let$ n := ptr_at p SQ_name in
    let$ n := deref n in
    let$ name := bytes (c_read n) in
    let$ f := ptr_at p SQ_filters in
    let$ next := ptr_at p SQ_next in
    let$ l := sequence_list fuel next in
    wret ((name, f) :: l)
  | _, _ => wret []
  end.

Definition load_and_list {al : allocator} (env : environment) (check : option ptr) : wmem (list (str * option ptr) * nat) :=
  let$ p := c_config_file_load literal_at env check in
  let$ q := ptr_at p CF_sequences in
  let$ l := sequence_list 19 q in
  fun s => done ((l, live (s_heap s)), s).

Definition quiet_env (files : str -> file_at) : environment :=
  mkEnv files (fun n => if str_eqb n (bs "HOME") then Some (bs "/h") else None) None None.

(** The blocks: 19 literals and names; the configuration (1), its list with 1 name (3), 11
    sequences (33), 17 filters, 7 of them with a name (24).  Sequences have filters in common. *)
Example C92_example_built_in :
  match snd (load_and_list (al := roomy) (quiet_env (fun _ => NoFile)) None string_literals) with
  | Ok ((l, n), s) => map fst l = map (fun q => s_name q) (cf_sequences spoof_config_file) /\ n = 19 + (1 + 3 + 33 + 24) /\
      match l with (_, f) :: (_, Some g) :: _ => nth_error (s_words s (p_block g)) 0 = Some (Some (word_of f)) | _ => False end
  | _ => False
  end.
Proof. vm_compute. auto. Qed.

(** The files of the system and of the user; or one that is named, with a copy of its name. *)
Definition home_and_etc (p : str) : file_at :=
  if str_eqb p (bs "/etc/detoxrc") then two_files (bs "a") else if str_eqb p (bs "/h/.detoxrc") then two_files (bs "b") else if str_eqb p (bs "b") then two_files p else NoFile.

Example C92_example_files :
  match snd (load_and_list (al := roomy) (quiet_env home_and_etc) None string_literals), snd (load_and_list (al := roomy) (quiet_env home_and_etc) (Some (mkPtr 18 0)) string_literals) with
  | Ok ((l, n), _), Ok ((l', n'), _) => map fst l = [bs "x"; bs "y"; bs "z"] /\ n = 19 + (1 + 4 + 9 + 5) + 7 + 2 /\ map fst l' = [bs "x"; bs "z"] /\ n' = 19 + (1 + 3 + 6 + 4) + 4 + 1
  | _, _ => False
  end.
Proof. vm_compute. auto. Qed.
