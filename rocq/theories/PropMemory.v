(** * Properties of the program in memory (C83-C85) *)

From Verif Require Import Base BaseFacts Stdio Table CleanString CleanSpec Filter Spoof SequenceSpec Filelist FilelistProofs
  Prog ProgFacts Warnings File FS FileSpec FileProofs Play Inline ConfigLex ConfigParse ConfigLoad ConfigLoadSpec Options OptionsSpec
  Startup Main BisonParser Generated GeneratedProofs MainSpec MainProofs StartSpec Mem MemSpec MemFacts CFilters CFile CFileProofs CMain CMainProofs PropSequence PropFile PropMain PropGenParser.

Local Open Scope nat_scope.

(** Examples: so many bytes of memory. *)
Definition bytes_of_memory (k : N) : allocator := fun h n => if (N.of_nat (heap_size h) + n <=? k)%N then None else Some (bs "Cannot allocate memory").

Definition block_of (s : string) : option (list cell) := Some (map Some (bs s) ++ [Some NUL]).

Lemma bytes_limited k : (k < 2 ^ 63)%N -> limited (bytes_of_memory k).
Proof. intros L h n. unfold refusal_of, bytes_of_memory, limit. destruct (N.leb_spec (N.of_nat (heap_size h) + n) k); [lia|discriminate]. Qed.

(** ** C83 *)

(** Every filter does in memory what it does on lists ... *)
Theorem C83_filters_in_memory :
  forall (al : allocator), limited al -> forall pf f h p name, cstr_at h p name -> bounded h ->
    in_memory h (c_filter_run pf f (Some p) h) (filter_run_says pf f (Some name)).
Proof. intros al L pf f h p name. exact (filter_in_memory L pf f h p name). Qed.
Print Assumptions C83_filters_in_memory.

(** ... and so does every sequence of filters. *)
Theorem C83_sequences_in_memory :
  forall (al : allocator), limited al -> forall pf seq h p name, cstr_at h p name -> bounded h ->
    in_memory h (c_sequence_run pf seq (Some p) h) (sequence_run_says pf seq (Some name)).
Proof. intros al L pf seq h p name. exact (sequence_in_memory L pf seq h p name). Qed.
Print Assumptions C83_sequences_in_memory.

(** Memory enough; too little for the second buffer; a table that does not leave room. *)
Example C83_example :
  let h := [block_of "x"; block_of "a b"] in
  let long := mkTable [mkRow 97 (Some (bs "A"))] 1 1 (Some (bs "too long")) 0 false false 97 in
  c_sequence_run (al := bytes_of_memory 1000) demo_pf (seq_of "default") (Some (mkPtr 1 0)) h =
    done (Some (mkPtr 4 0), h ++ [None; None; Some (map Some (bs "a_b") ++ [Some NUL]); None]) /\
  c_sequence_run (al := bytes_of_memory 20) demo_pf (seq_of "default") (Some (mkPtr 1 0)) h =
    ([(Stderr, bs "detox: out of memory: Cannot allocate memory" ++ [newline])], Exit EXIT_FAILURE) /\
  snd (c_filter_run (al := bytes_of_memory 1000) demo_pf (mkFilter F_safe None None false 0 (Some long)) (Some (mkPtr 1 0)) h) = UB BufferOverflow.
Proof. intros; splits; vm_compute; reflexivity. Qed.

(** ** C84 *)

(** A run of the program in memory is a run of the program on lists, and has come just as
    far, unless there is no memory left. *)
Theorem C84_program_in_memory :
  forall (al : allocator), limited al -> forall arr fuel sy argv, arrives arr (m_env sy) -> Forall nonul argv -> Forall fits argv ->
    forall S (step : S -> forall c, answer c -> S -> Prop) (interference : S -> S -> Prop) s tr s' p',
    runs step interference (c_main arr fuel sy argv []) s tr s' p' -> Forall fair_event tr ->
    (exists q', runs step interference (main fuel sy argv) s tr s' q' /\
       (as_far p' q' \/ exists message h n, refusal_of h n = Some message /\ p' = gives_up message)) \/
    ended_without_memory step interference (main fuel sy argv) s tr s' p'.
Proof. intros al L arr fuel sy argv Ar N F S step interference s tr s' p'. exact (main_runs L step interference arr fuel sy argv s tr s' p' Ar N F). Qed.
Print Assumptions C84_program_in_memory.

(** And the other way around. *)
Theorem C84_program_on_lists :
  forall (al : allocator), limited al -> forall arr fuel sy argv, arrives arr (m_env sy) -> Forall nonul argv -> Forall fits argv ->
    forall S (step : S -> forall c, answer c -> S -> Prop) (interference : S -> S -> Prop) s tr s' q',
    runs step interference (main fuel sy argv) s tr s' q' -> Forall fair_event tr ->
    (exists p', runs step interference (c_main arr fuel sy argv []) s tr s' p' /\
       (as_far p' q' \/ exists message h n, refusal_of h n = Some message /\ p' = gives_up message)) \/
    (exists before after message h n s1, tr = before ++ after /\ refusal_of h n = Some message /\
       runs step interference (c_main arr fuel sy argv []) s before s1 (gives_up message)).
Proof. intros al L arr fuel sy argv Ar N F S step interference s tr s' q'. exact (main_runs_back L step interference arr fuel sy argv s tr s' q' Ar N F). Qed.
Print Assumptions C84_program_on_lists.

(** Undefined behaviour: only three kinds, each known from lists.  Memory that was freed is
    not used, what was not written is not read, NULL is not followed, loops end. *)
Theorem C84_memory_errors :
  forall (al : allocator), limited al -> forall arr fuel sy argv, arrives arr (m_env sy) -> Forall nonul argv -> Forall fits argv ->
    forall S (step : S -> forall c, answer c -> S -> Prop) (interference : S -> S -> Prop) s tr s' u,
    runs step interference (c_main arr fuel sy argv []) s tr s' (Stop (StopUB u)) -> Forall fair_event tr ->
    (u = ReadPastEnd /\ exists said, opens sy argv said (Over (StopUB u)) /\ tr = map heard said) \/
    (exists ws fs o c, started sy argv ws fs o c /\ (u = BufferOverflow \/ u = BufferUnderread /\ o_is_inline_mode o = true)).
Proof. intros al L arr fuel sy argv Ar N F S step interference s tr s' u. exact (main_undefined L step interference arr fuel sy argv s tr s' u Ar N F). Qed.
Print Assumptions C84_memory_errors.

Definition usual_arrival : arrival := mkArrival (fun k => if Nat.even k then by_one else as_many) (fun _ => V_unset).

Definition a_run (k : N) : list event * tree * prog (N * heap) :=
  let t := demo_tree [en 1 "a b" 10; en 1 "d" 2; en 2 "x y" 12; en 2 "z" 13] in
  play demo_world (c_main (al := bytes_of_memory k) usual_arrival 9 (plain_system no_files no_env) (map bs ["detox"; "-r"; "a b"; "d"]%string) []) t 3
    [Some (bs "x y"); Some (bs "z"); None].

Definition outcome (r : list event * tree * prog (N * heap)) : option (N * nat) + stop :=
  match snd r with Ret (n, h) => inl (Some (n, live h)) | Stop w => inr w | Call _ _ => inl None end.

Example C84_example :
  names_of (final (a_run 5000)) = [(1, bs "a_b", 10); (1, bs "d", 2); (2, bs "x_y", 12); (2, bs "z", 13)]%N /\
  names_of (final (a_run 200)) = [(1, bs "a_b", 10); (1, bs "d", 2); (2, bs "x y", 12); (2, bs "z", 13)]%N /\
  outcome (a_run 200) = inr (StopExit EXIT_FAILURE) /\
  last (trace (a_run 200)) (Ev (Closedir 0) tt) = Ev (Print Stderr (bs "detox: out of memory: Cannot allocate memory" ++ [newline])) tt.
Proof. splits; vm_compute; reflexivity. Qed.

(** ** C85 *)

(** parse_file returns a name in memory of its own.  It loses one block if the name is
    protected or already clean, and none otherwise. *)
Theorem C85_file :
  forall (al : allocator), limited al -> forall o p name h, cstr_at h p name -> bounded h ->
    forall S (step : S -> forall c, answer c -> S -> Prop) (interference : S -> S -> Prop) s tr s' q h',
    runs step interference (c_parse_file p o h) s tr s' (Ret (q, h')) -> Forall fair_event tr ->
    exists r, runs step interference (parse_file name o) s tr s' (Ret r) /\ hands_over (lost_by_file o name) h q r h'.
Proof. intros al L o p name h C B S step interference s tr s' q h'. exact (file_left L step interference o p name h s tr s' q h' C B). Qed.
Print Assumptions C85_file.

(** parse_dir loses a block for every directory that is opened, and at most one more for
    every lstat. *)
Theorem C85_directory :
  forall (al : allocator), limited al -> forall fuel o p name ign h, cstr_at h p name -> bounded h ->
    forall S (step : S -> forall c, answer c -> S -> Prop) (interference : S -> S -> Prop) s tr s' r h',
    runs step interference (c_parse_dir fuel o p ign h) s tr s' (Ret (r, h')) -> Forall fair_event tr ->
    exists lost, leaves_behind lost h h' /\ opened_in tr <= lost <= opened_in tr + asked_in tr.
Proof. intros al L fuel o p name ign h C B S step interference s tr s' r h'. exact (dir_left L step interference fuel o p name ign h s tr s' r h' C B). Qed.
Print Assumptions C85_directory.

(** parse_inline loses its buffer, and at most one block more for every line "." or "..". *)
Theorem C85_stream :
  forall (al : allocator), limited al -> forall o p name h, cstr_at h p name -> bounded h ->
    forall S (step : S -> forall c, answer c -> S -> Prop) (interference : S -> S -> Prop) s tr s' h',
    runs step interference (c_parse_inline (Some p) o h) s tr s' (Ret (tt, h')) -> Forall fair_event tr ->
    exists lost, leaves_behind lost h h' /\ read_in tr <= lost <= read_in tr + dotted_in tr.
Proof. intros al L o p name h C B S step interference s tr s' h'. exact (inline_left L step interference o p name h s tr s' h' C B). Qed.
Print Assumptions C85_stream.

(** What is not freed when the program is over: the names of the files, and what was lost. *)
Theorem C85_program :
  forall (al : allocator), limited al -> forall arr fuel sy argv, arrives arr (m_env sy) -> Forall nonul argv -> Forall fits argv ->
    forall S (step : S -> forall c, answer c -> S -> Prop) (interference : S -> S -> Prop) s tr s' n h,
    runs step interference (c_main arr fuel sy argv []) s tr s' (Ret (n, h)) -> Forall fair_event tr ->
    exists ws fs, asks (posix_env sy) (tl argv) ws fs /\
      ((~ (as_inline argv \/ In Inline_mode ws) /\
         length fs + opened_in tr <= live h <= length fs + opened_in tr + 2 * asked_in tr) \/
       ((as_inline argv \/ In Inline_mode ws) /\
         length fs + read_in tr <= live h <= length fs + read_in tr + dotted_in tr)).
Proof. intros al L arr fuel sy argv Ar N F S step interference s tr s' n h R Fa. exact (proj2 (main_left L step interference arr fuel sy argv s tr s' n h Ar N F R Fa)). Qed.
Print Assumptions C85_program.

(** Memory is not always given back: a name that is clean already is enough. *)
Theorem C85_nothing_lost_refuted :
  exists (al : allocator) o p name h t tr q h',
    limited al /\ cstr_at h p name /\ runs (fs_step demo_world) alone (c_parse_file p o h) t tr t (Ret (q, h')) /\
    (exists r, hands_over 1 h q r h') /\ (forall r, ~ hands_over 0 h q r h').
Proof.
  pose (h := [block_of "clean"] : heap).
  pose (o := mkOptions demo_pf false false false false false false 0 (seq_of "default") None None None None).
  exists (bytes_of_memory 1000), o, (mkPtr 0 0), (bs "clean"), h, (demo_tree []), [], (mkPtr 1 0).
  eexists. splits.
  - now apply bytes_limited.
  - exists (map Some (bs "clean") ++ [Some NUL]), []. splits; auto. vm_compute. intuition discriminate.
  - vm_compute. left. splits; reflexivity.
  - exists (bs "clean"). exists [], (block_of "clean"), [None; None; None; block_of "clean"; None]. splits; try reflexivity.
    exists []. split; [reflexivity|]. vm_compute. intuition discriminate.
  - intros r (a & b & c & E & _ & (rest & -> & _) & L). apply (f_equal live) in E. rewrite !live_app in E.
    rewrite (live_cons (Some _) c) in E. cbn [is_live] in E. change (live h) with 1 in E.
    match type of E with ?l = _ => change l with 3 in E end. lia.
Qed.
Print Assumptions C85_nothing_lost_refuted.

Example C85_example :
  outcome (a_run 5000) = inl (Some (0%N, 6)) /\ opened_in (trace (a_run 5000)) = 1 /\
  (let o := mkOptions demo_pf false false false false false false 0 (seq_of "default") None None None None in
   map (fun n => lost_by_file o (bs n)) ["d/a b"; "d/a_b"; ".."; "x/."; "A"]%string = [0; 1; 1; 1; 1]).
Proof. splits; vm_compute; reflexivity. Qed.
