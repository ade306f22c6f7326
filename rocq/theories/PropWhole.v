(** * Properties of the whole program in memory (C98) *)

From Verif Require Import Base BaseFacts Stdio Filter Spoof Filelist FileSpec Prog ProgFacts Warnings File FS Play Inline Options ConfigLex ConfigParse ConfigLoad ConfigLoadSpec Startup Main MainSpec StartSpec
  Mem MemSpec CFilters Words WordsSpec CTable CTableProofs CFilelist FilesSpec CConfig LinkedSpec CLoad CLoadSpec CReview CReviewSpec CReviewProofs3 CRun CRunSpec COptions COptionsSpec CDump
  CWork CWorkSpec CWhole CWholeSpec CWholeProofs2 PropSequence PropFile PropRun PropMemory PropLinked PropLoading PropReview PropSequenceRun PropWork.

Local Open Scope nat_scope.

(** ** C98 *)

(** The program from the first to the last line of main, in one memory that has the command
    line, the value of DETOX_SEQUENCE, the string literals and the built-in tables in it: the
    options, the configuration, the sequence with its tables, the lists of files and all names
    are found by following addresses.  A run does what a run of the program on lists does, and
    has come just as far, unless a request for memory was refused: that is reported, and it
    ends the program.  While the command line and the configuration are read, that can only
    happen if a stated amount of memory is not to be had. *)
Theorem C98_whole :
  forall (al : allocator), limited al ->
  forall literal static denied_size sys, decent sys denied_size ->
  forall m argv args detox_sequence fuel,
    at_start literal static sys argv args detox_sequence m -> manageable sys argv denied_size -> heedful al sys argv m ->
  forall S (step : S -> forall c, answer c -> S -> Prop) (interference : S -> S -> Prop) s tr s' p',
    runs step interference (w_main literal static denied_size fuel sys args detox_sequence m) s tr s' p' -> Forall fair_event tr -> ~ worn_out sys argv tr ->
    (exists q', runs step interference (main fuel sys argv) s tr s' q' /\ (as_far_as p' q' \/ at_a_loss (requested sys argv m) p')) \/
    ends_short (requested sys argv m) step interference (main fuel sys argv) s tr s' p'.
Proof. exact @main_runs. Qed.
Print Assumptions C98_whole.

(** And the other way around *)
Theorem C98_on_lists :
  forall (al : allocator), limited al ->
  forall literal static denied_size sys, decent sys denied_size ->
  forall m argv args detox_sequence fuel,
    at_start literal static sys argv args detox_sequence m -> manageable sys argv denied_size -> heedful al sys argv m ->
  forall S (step : S -> forall c, answer c -> S -> Prop) (interference : S -> S -> Prop) s tr s' q',
    runs step interference (main fuel sys argv) s tr s' q' -> Forall fair_event tr -> ~ worn_out sys argv tr ->
    (exists p', runs step interference (w_main literal static denied_size fuel sys args detox_sequence m) s tr s' p' /\ (as_far_as p' q' \/ at_a_loss (requested sys argv m) p')) \/
    (exists before after s1 p1, tr = before ++ after /\
       runs step interference (w_main literal static denied_size fuel sys args detox_sequence m) s before s1 p1 /\ at_a_loss (requested sys argv m) p1).
Proof. exact @main_runs_back. Qed.
Print Assumptions C98_on_lists.

(** When main returns, the arguments, the literals and all else that was in memory at the
    beginning is where it was. *)
Theorem C98_left :
  forall (al : allocator), limited al ->
  forall literal static denied_size sys, decent sys denied_size ->
  forall m argv args detox_sequence fuel,
    at_start literal static sys argv args detox_sequence m -> manageable sys argv denied_size -> heedful al sys argv m ->
  forall S (step : S -> forall c, answer c -> S -> Prop) (interference : S -> S -> Prop) s tr s' n m',
    runs step interference (w_main literal static denied_size fuel sys args detox_sequence m) s tr s' (Ret (n, m')) -> Forall fair_event tr -> ~ worn_out sys argv tr ->
    runs step interference (main fuel sys argv) s tr s' (Ret n) /\ exists new, s_heap m' = s_heap m ++ new.
Proof. exact @main_left. Qed.
Print Assumptions C98_left.

(** Undefined behaviour: only three kinds, each known from lists.  Memory that was freed is not
    used, what was not written is not read, NULL is not followed, nothing is mistaken for
    something else, no int overflows, loops end. *)
Theorem C98_memory_errors :
  forall (al : allocator), limited al ->
  forall literal static denied_size sys, decent sys denied_size ->
  forall m argv args detox_sequence fuel,
    at_start literal static sys argv args detox_sequence m -> manageable sys argv denied_size -> heedful al sys argv m ->
  forall S (step : S -> forall c, answer c -> S -> Prop) (interference : S -> S -> Prop) s tr s' u,
    runs step interference (w_main literal static denied_size fuel sys args detox_sequence m) s tr s' (Stop (StopUB u)) -> Forall fair_event tr -> ~ worn_out sys argv tr ->
    (u = ReadPastEnd /\ exists said, opens sys argv said (Over (StopUB u)) /\ tr = map heard said) \/
    (exists ws fs o c, started sys argv ws fs o c /\ (u = BufferOverflow \/ u = BufferUnderread /\ o_is_inline_mode o = true)).
Proof. exact @main_undefined. Qed.
Print Assumptions C98_memory_errors.

(** ** Examples *)

(** A memory to start from: the string literals and the arguments, then the tables *)
Definition start_literals : list str := all_literals ++ run_literals.
Definition place_in (x : str) : ptr := mkPtr (PropLoading.index x start_literals) 0.
Definition before_tables (argv : list str) : store_t := mkStore (map string_block (start_literals ++ argv)) (fun _ => []).
Definition the_start (argv : list str) : store_t := all_placed (before_tables argv).
Definition args_of (argv : list str) : list ptr := map (fun i => mkPtr (length start_literals + i) 0) (seq 0 (length argv)).

Definition sees (rc : option str) : system := a_system (fun p => if str_eqb p (bs "/h/.detoxrc") then match rc with Some x => Contents x | None => NoFile end else NoFile).

Definition whole (k : N) (rc : option str) (argv : list str) : prog (N * store_t) :=
  w_main (al := bytes_of_memory k) place_in (static_at (before_tables argv)) (fun _ => 0) 9 (sees rc) (args_of argv) None (the_start argv).

(** Renaming two files and what is in a directory, with the user's configuration: memory enough,
    memory for one file only, memory for the options only, memory for nothing *)
Definition a_whole (k : N) : list event * tree * prog (N * store_t) :=
  play demo_world (whole k (Some (bs "sequence ""default"" { safe; wipeup; }; ignore { filename ""x y""; };")) (map bs ["detox"; "-r"; "a b"; "d"]%string))
    (demo_tree [en 1 "a b" 10; en 1 "d" 2; en 2 "x y" 12; en 2 "z z" 13]) 3 (map Some [bs "x y"; bs "z z"] ++ [None]).

Example C98_example :
  map (fun k => (names_of (final (a_whole k)), ending (a_whole k))) [40000; 12000; 11000]%N =
  [([(1, bs "a_b", 10); (1, bs "d", 2); (2, bs "x y", 12); (2, bs "z_z", 13)]%N, inl (Some 0%N));
   ([(1, bs "a_b", 10); (1, bs "d", 2); (2, bs "x y", 12); (2, bs "z z", 13)]%N, inr (StopExit EXIT_FAILURE));
   ([(1, bs "a b", 10); (1, bs "d", 2); (2, bs "x y", 12); (2, bs "z z", 13)]%N, inr (StopExit EXIT_FAILURE))].
Proof. vm_compute. reflexivity. Qed.

(** Other ends: the sequences are listed; there is no such sequence; a mistake in the
    configuration; a stream is cleaned *)
Fixpoint reply {A} (system : forall c, option (answer c)) (p : prog A) : list event * prog A :=
  match p with
  | Call c k => match system c with
                | Some r => let (tr, q) := reply system (k r) in (Ev c r :: tr, q)
                | None => ([], p)
                end
  | _ => ([], p)
  end.

Definition whole_with (rc : option str) (argv : list string) : list call * (option N + stop) :=
  let r := reply stream (whole 40000 rc (map bs argv)) in
  (asked_for (fst r), match snd r with Ret (n, _) => inl (Some n) | Stop w => inr w | Call _ _ => inl None end).

Example C98_ends :
  map (fun run => whole_with (fst run) (snd run))
    [(Some (bs "sequence b { safe; };"), ["detox"; "-L"]); (None, ["detox"; "-s"; "none"; "x"]); (Some (bs "sequence {"), ["detox"; "x"]); (None, ["inline-detox"; "e e"])]%string =
  [([Print Stdout (bs "available sequences:" ++ [newline; tab] ++ bs "b (*)" ++ [newline])], inr (StopExit EXIT_SUCCESS));
   ([Print Stderr (bs "detox: no sequence to work with" ++ [newline])], inr (StopExit EXIT_FAILURE));
   ([Print Stderr (bs "detox: error parsing config file /h/.detoxrc: syntax error" ++ [newline; tab] ++ bs "line 1: {" ++ [newline])], inr (StopExit EXIT_FAILURE));
   ([Lstat (bs "e e"); ReadStream (Some (bs "e e")); Print Stdout (bs "c_d"); Print Stdout [newline]], inl (Some 0%N))].
Proof. vm_compute. reflexivity. Qed.

(** The theorems apply to this program. *)
Definition an_rc : str := bs "sequence ""default"" { safe; wipeup; }; ignore { filename ""x y""; };".
Definition an_argv : list str := map bs ["detox"; "-r"; "a b"; "d"]%string.

Lemma sees_decent rc : (Z.of_nat (length rc) < 3000)%Z -> decent (sees (Some rc)) (fun _ => 0).
Proof.
  intros L. unfold decent. splits; try exact I.
  - intros path. cbn [sees a_system m_env e_files quiet_env]. unfold ParseTableSpec.room. destruct (str_eqb path _); cbn [contents_of]; [|cbn; unfold int_max; lia].
    pose proof (Nat.div_le_upper_bound (length rc) 6 (length rc) ltac:(lia) ltac:(lia)). unfold int_max. lia.
  - intros path. vm_compute. discriminate.
Qed.

Example C98_applies :
  let al := bytes_of_memory (2 ^ 62) in
  limited al /\ decent (sees (Some an_rc)) (fun _ => 0) /\
  at_start place_in (static_at (before_tables an_argv)) (sees (Some an_rc)) an_argv (args_of an_argv) None (the_start an_argv) /\
  manageable (sees (Some an_rc)) an_argv (fun _ => 0) /\ heedful al (sees (Some an_rc)) an_argv (the_start an_argv).
Proof.
  assert (Eo : exists o, snd (says_options (sees (Some an_rc)) an_argv) = Ok o /\ o_check_config_file o = None) by (eexists; split; vm_compute; reflexivity).
  destruct Eo as (o & Eo & Ec). cbv zeta. splits.
  - apply bytes_limited. reflexivity.
  - apply sees_decent. reflexivity.
  - unfold at_start. splits; try exact I.
    + unfold args_of, an_argv. cbn [map seq length].
      repeat (apply Forall2_cons); [..|apply Forall2_nil]; (match goal with |- cstr_at _ _ ?t => exists (map Some t ++ [Some NUL]), [] end; splits; [reflexivity|reflexivity|now apply nonul_dec]).
    + intros x J. vm_compute in J.
      repeat (destruct J as [<-|J]; [match goal with |- cstr_at _ _ ?t => exists (map Some t ++ [Some NUL]), [] end; splits; [reflexivity|reflexivity|now apply nonul_dec]|]); destruct J.
    + apply C93_statics.
    + vm_compute. reflexivity.
  - unfold manageable. splits.
    + vm_compute. discriminate.
    + apply sees_decent. reflexivity.
    + intros o' Eo'. rewrite Eo in Eo'. injection Eo' as <-. unfold readable. rewrite Ec. unfold orderly. splits; [|vm_compute; reflexivity|vm_compute; discriminate].
      apply Forall_forall. intros p J. vm_compute in J. repeat (destruct J as [<-|J]; [split; [now apply nonul_dec|vm_compute; discriminate]|]). destruct J.
  - intros o' path h n Eo' _ _ W. rewrite Eo in Eo'. injection Eo' as <-. unfold within, reading_takes in W. rewrite Ec in W. unfold refusal_of, bytes_of_memory.
    destruct (N.leb_spec (N.of_nat (heap_size h) + n) (2 ^ 62)) as [_|G]; [reflexivity|exfalso].
    assert (Hs : (Z.of_nat (heap_size (s_heap (the_start an_argv))) < 20000)%Z) by (vm_compute; reflexivity).
    assert (Ho : (Z.of_nat (options_room an_argv) < 20000)%Z) by (vm_compute; reflexivity).
    assert (Hl : (Z.of_nat (loading_room (m_env (sees (Some an_rc)))) < 1000000)%Z) by (vm_compute; reflexivity).
    change (2 ^ 62)%N with 4611686018427387904%N in G. lia.
Qed.
