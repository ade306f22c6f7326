(** * Properties of the work with lists and sequence in memory (C95) *)

From Verif Require Import Base BaseFacts Stdio Filter Spoof Filelist FileSpec Prog ProgFacts Warnings File FS Play Inline Startup Main ConfigLex ConfigParse ConfigLoad
  Mem MemSpec CFilters Words WordsSpec CTable CFilelist FilesSpec CConfig LinkedSpec CLoad CLoadSpec CReview CReviewSpec CReviewProofs3 CRun CRunSpec CWork CWorkSpec CWorkProofs3
  PropSequence PropFile PropRun PropMemory PropLinked PropLoading PropReview PropSequenceRun.

Local Open Scope nat_scope.

(** ** C95 *)

(** Files, directories, arguments and streams, where the sequence with its tables, the list of
    the files to ignore and the list of the file arguments are in memory and are reached by the
    addresses in the options.  A run does what a run of the description on lists does, and has
    come just as far, unless a request for memory was refused: that is reported, and it ends
    the program.  This holds as long as the counters of the tables, which are ints, cannot have
    overflowed. *)
Theorem C95_work :
  forall (al : allocator), limited al ->
  forall S (step : S -> forall c, answer c -> S -> Prop) (interference : S -> S -> Prop) literal m sequence ignore files q ign fs k sown iown fown fuel o,
    o_sequence_to_use o = Some q -> set_up literal m sequence ignore files q ign fs k sown iown fown -> cursor fs = 0 -> bounded (s_heap m) ->
  forall s tr s' p', runs step interference (w_work literal sequence ignore files fuel o m) s tr s' p' -> Forall fair_event tr -> ~ CWorkSpec.worn (o_platform o) q k tr ->
    (exists q', runs step interference (work fuel o (items fs) ign) s tr s' q' /\ (as_far_as p' q' \/ at_a_loss (more_than m) p')) \/
    ends_short (more_than m) step interference (work fuel o (items fs) ign) s tr s' p'.
Proof. exact @work_runs. Qed.
Print Assumptions C95_work.

(** And the other way around *)
Theorem C95_work_on_lists :
  forall (al : allocator), limited al ->
  forall S (step : S -> forall c, answer c -> S -> Prop) (interference : S -> S -> Prop) literal m sequence ignore files q ign fs k sown iown fown fuel o,
    o_sequence_to_use o = Some q -> set_up literal m sequence ignore files q ign fs k sown iown fown -> cursor fs = 0 -> bounded (s_heap m) ->
  forall s tr s' q', runs step interference (work fuel o (items fs) ign) s tr s' q' -> Forall fair_event tr -> ~ CWorkSpec.worn (o_platform o) q k tr ->
    (exists p', runs step interference (w_work literal sequence ignore files fuel o m) s tr s' p' /\ (as_far_as p' q' \/ at_a_loss (more_than m) p')) \/
    (exists before after s1 p1, tr = before ++ after /\ runs step interference (w_work literal sequence ignore files fuel o m) s before s1 p1 /\ at_a_loss (more_than m) p1).
Proof. exact @work_runs_back. Qed.
Print Assumptions C95_work_on_lists.

(** What is left when the work is done: all that was in memory before, where it was.  The
    sequence is as it was but for the counters in its tables, the lists have the same files,
    and the list of the file arguments is at its beginning.  Not freed is a block for every
    directory that was opened, at most two more for every lstat; or the buffer of every stream,
    at most one more for every line "." or "..". *)
Theorem C95_left :
  forall (al : allocator), limited al ->
  forall S (step : S -> forall c, answer c -> S -> Prop) (interference : S -> S -> Prop) literal m sequence ignore files q ign fs k sown iown fown fuel o,
    o_sequence_to_use o = Some q -> set_up literal m sequence ignore files q ign fs k sown iown fown -> cursor fs = 0 -> bounded (s_heap m) ->
  forall s tr s' n m', runs step interference (w_work literal sequence ignore files fuel o m) s tr s' (Ret (n, m')) -> Forall fair_event tr -> ~ CWorkSpec.worn (o_platform o) q k tr ->
    runs step interference (work fuel o (items fs) ign) s tr s' (Ret n) /\
    (exists new, s_heap m' = s_heap m ++ new /\
       if o_is_inline_mode o then read_in tr <= live new <= read_in tr + dotted_in tr else opened_in tr <= live new <= opened_in tr + 2 * asked_in tr) /\
    exists ign' fs' k', items ign' = items ign /\ items fs' = items fs /\ cursor fs' = 0 /\ k' <= k + lookups (o_platform o) (s_filters q) (names_in (p_schar (o_platform o)) tr) /\
      set_up literal m' sequence ignore files q ign' fs' k' sown iown fown.
Proof. exact @work_left. Qed.
Print Assumptions C95_left.

(** [work] is what [main] does in the end. *)
Theorem C95_is_main :
  forall fuel o names ign,
    work fuel o names ign =
    if o_is_inline_mode o then (let! _ := (match names with [] => parse_inline None o | _ => inline_arguments o names end) in Ret 0%N)
    else let! _ := process_arguments fuel o names ign in Ret 0%N.
Proof. intros fuel o [|name names] ign; unfold work; now destruct (o_is_inline_mode o). Qed.
Print Assumptions C95_is_main.

(** ** Examples *)

(** The configuration is read, the sequence chosen, its tables loaded, a list of the file
    arguments built, and the work done: all in one memory. *)
Definition work_names : list str := map bs ["a b"; "d"; "e e"]%string.
Definition work_literals : list str := more_literals ++ work_names.
Definition place_of (x : str) : ptr := mkPtr (PropLoading.index x work_literals) 0.
Definition work_memory : store_t := mkStore (map string_block work_literals) (fun _ => []).

Definition a_config : system := a_system (fun p => if str_eqb p (bs "/h/.detoxrc") then Contents (bs "sequence ""default"" { safe; wipeup; }; ignore { filename ""x y""; };") else NoFile).

Fixpoint put_all {al : allocator} (l : ptr) (files : list str) : wmem unit :=
  match files with [] => wret tt | f :: files => let$ _ := c_filelist_put (Some l) (place_of f) in put_all l files end.

Definition all_of_it {al : allocator} (o : options_t) (names : list str) : sprog N :=
  let# (q, i, l) := inner (
    let$ (c, q) := c_prepare place_of (static_at work_memory) (fun _ => 0) a_config None None in
    let$ i := ptr_at c CF_files_to_ignore in
    let$ l := c_filelist_init in
    let$ _ := put_all l names in
    wret (q, i, l)) in
  w_work place_of (Some q) i (Some l) 9 o.

Definition a_work (k : N) (names : list str) (entries : list (option str)) : list event * tree * prog (N * store_t) :=
  let t := demo_tree [en 1 "a b" 10; en 1 "d" 2; en 2 "x y" 12; en 2 "z z" 13] in
  play demo_world (all_of_it (al := bytes_of_memory k) (mkOptions demo_pf false false false false true false 0 None None None None None) names (all_placed work_memory)) t 3 entries.

Definition ending {A} (r : list event * tree * prog (A * store_t)) : option A + stop :=
  match snd r with Ret (n, _) => inl (Some n) | Stop w => inr w | Call _ _ => inl None end.

(** A file, a directory with a file to ignore and one that is not; then the same with little
    memory left: the work ends in the middle. *)
Example C95_example :
  map (fun k => let r := a_work k work_names (map Some [bs "x y"; bs "z z"] ++ [None]) in (names_of (final r), ending r)) [30000; 12500]%N =
  [([(1, bs "a_b", 10); (1, bs "d", 2); (2, bs "x y", 12); (2, bs "z_z", 13)]%N, inl (Some 0%N));
   ([(1, bs "a_b", 10); (1, bs "d", 2); (2, bs "x y", 12); (2, bs "z z", 13)]%N, inr (StopExit EXIT_FAILURE))].
Proof. vm_compute. reflexivity. Qed.

(** A directory and a stream *)
Definition stream (c : call) : option (answer c) :=
  match c return option (answer c) with
  | Lstat f => Some (inl {| st_kind := (if str_eqb f (bs "d") then SDir else SReg); st_dev := 1; st_ino := 2; st_nlink := 1 |})
  | ReadStream (Some f) => Some (inl (bs "c  d" ++ [newline]))
  | Print _ _ => Some tt
  | _ => None
  end.

Definition a_stream : list event * prog (N * store_t) :=
  ask stream (all_of_it (al := bytes_of_memory 30000) (mkOptions demo_pf false true true false false false 0 None None None None None) (tl work_names) (all_placed work_memory)).

Example C95_stream :
  asked_for (fst a_stream) =
    [Lstat (bs "d"); Print Stderr (bs "d: is a directory" ++ [newline]);
     Lstat (bs "e e"); ReadStream (Some (bs "e e")); Print Stdout (bs "c_d"); Print Stdout [newline]] /\
  match snd a_stream with Ret (n, _) => Some n | _ => None end = Some 0%N.
Proof. split; vm_compute; reflexivity. Qed.
