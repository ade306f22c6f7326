(** * Properties of check-table in memory (C99) *)

From Verif Require Import PropMemory.
From Verif Require Import Base BaseFacts Stdio Table TableSpec Prog ParseTable ParseTableSpec TableFileSpec CheckTable CheckSpec PropParseTable PropCheck
  Mem MemSpec Words WordsSpec CTable TablesSpec LoadSpec LinkedSpec CCheck CCheckSpec CCheckProofs4.

Local Open Scope nat_scope.

(** ** C99 *)

(** check-table in a memory of blocks: the buffers for lines, the table with its rows, and
    the table rebuilt with -b.  It prints what it prints on lists, and ends likewise, unless
    a request for memory was refused: then that is reported, and what was printed before is a
    part of the same.  What is still allocated at the end is known.  Nothing is refused that fits
    a stated amount. *)
Theorem C99_check_table_in_memory :
  forall (al : allocator) percent posix args first second denied_size s,
    (forall o file, asked posix args o file ->
       sizeable (first file) /\ sizeable (second file) /\ (Z.of_nat (table_capacity (denied_size file)) <= int_max)%Z /\ (k_builtin o = true -> limited al)) ->
    follows (fun h k => exists o file, asked posix args o file /\ needs s o (first file) (denied_size file) h k) (fun _ _ => False)
      (fun status status' s' => status' = status /\
         ((exists o file, asked posix args o file /\ leftover s o (first file) (second file) s') \/ (forall o file, ~ asked posix args o file) /\ s' = s))
      (check_main percent posix args first second) (c_check_main percent posix args first second denied_size s).
Proof. exact @check_main_ok. Qed.
Print Assumptions C99_check_table_in_memory.

(** Undefined behaviour: the null pointer of C78, and no other.  Memory that was freed is not
    used, nothing is written outside of a block, what was not written is not read, no int
    overflows, loops end. *)
Theorem C99_memory_errors :
  forall (al : allocator) percent posix args first second denied_size s why,
    (forall o file, asked posix args o file ->
       sizeable (first file) /\ sizeable (second file) /\ (Z.of_nat (table_capacity (denied_size file)) <= int_max)%Z /\ (k_builtin o = true -> limited al)) ->
    snd (c_check_main percent posix args first second denied_size s) = UB why ->
    why = NullDeref /\ exists o file, asked posix args o file /\ k_builtin o = true /\ second file <> Absent /\
      (forall contents, first file = Readable contents -> parse_table [] contents = Ok None).
Proof. exact @check_main_undefined. Qed.
Print Assumptions C99_memory_errors.

(** With that much memory the check is complete. *)
Theorem C99_enough :
  forall (al : allocator) percent posix args first second denied_size s o file need,
    asked posix args o file -> (k_builtin o = true -> limited al) -> bytes_needed o (denied_size file) (first file) need ->
    sizeable (first file) -> sizeable (second file) -> (Z.of_nat (table_capacity (denied_size file)) <= int_max)%Z ->
    (forall h k, heap_size h + N.to_nat k <= heap_size (s_heap s) + need -> refusal_of h k = None) ->
    fst (c_check_main percent posix args first second denied_size s) = fst (check_main percent posix args first second) /\
    match snd (check_main percent posix args first second) with
    | Ok status => exists s', snd (c_check_main percent posix args first second denied_size s) = Ok (status, s') /\ leftover s o (first file) (second file) s'
    | UB why => snd (c_check_main percent posix args first second denied_size s) = UB why
    | Exit _ => False
    end.
Proof. exact @check_main_enough. Qed.
Print Assumptions C99_enough.

(** ** Examples *)

Definition blank_store : store_t := mkStore [] (fun _ => []).

(** What is printed, the status and the number of blocks left *)
Definition in_memory (k : N) (args : list string) (first second : table_file) : list (stream * str) * res (N * nat) :=
  let% r := c_check_main (al := bytes_of_memory k) (fun a b => if (a =? 4) && (b =? 500) then bs "0.80" else bs "?") false (map bs args) (fun _ => first) (fun _ => second) (fun _ => 0) blank_store in
  done (fst r, live (s_heap (snd r))).

(** The file of C76: "ccc" is lost, which "dd" replaced.  With little memory, the table is not
    even begun; or a code cannot be stored. *)
Example C99_example :
  let full := fst (outcome ["-d"; "t.tbl"]%string (Readable sample) Absent) in
  let refused := (Stderr, no_memory_left (bs "Cannot allocate memory")) in
  in_memory 1000000 ["-d"; "t.tbl"]%string (Readable sample) Absent = (full, Ok (0%N, 1)) /\
  in_memory 1000 ["-d"; "t.tbl"]%string (Readable sample) Absent = (firstn 1 full ++ [refused], Exit 1%N) /\
  in_memory 10120 ["-d"; "t.tbl"]%string (Readable sample) Absent = (firstn 2 full ++ [refused], Exit 1%N).
Proof. vm_compute. auto. Qed.

(** The stated amount is the least. *)
Example C99_amount :
  in_memory 10126 ["t.tbl"]%string (Readable sample) Absent = (fst (outcome ["t.tbl"]%string (Readable sample) Absent), Ok (0%N, 1)) /\
  snd (in_memory 10125 ["t.tbl"]%string (Readable sample) Absent) = Exit 1%N /\
  loading_size sample [Default (Some (bs "_")); Entry 66 (bs "bb"); Entry 65 (bs "a"); Entry 566 (bs "ccc"); Entry 566 (bs "dd")] = N.to_nat 10126.
Proof. vm_compute. auto. Qed.

(** With -b as well, when no text is replaced. *)
Example C99_amount_rebuilt :
  let file := Readable (lines ["default _"; "start"; "0x41 a"; "0x141 b"; "end"]%string) in
  in_memory 14284 ["t.tbl"; "-b"]%string file file = (fst (outcome ["t.tbl"; "-b"]%string file file), Ok (0%N, 0)) /\
  snd (in_memory 14283 ["t.tbl"; "-b"]%string file file) = Exit 1%N.
Proof. vm_compute. auto. Qed.

(** A table that is rebuilt; one that cannot be opened again, so that the rebuilt table is lost
    (two blocks and one for each text); a file that cannot be opened; none at all. *)
Example C99_lost :
  let file := Readable (lines ["default _"; "start"; "0x41 a"; "0x141 b"; "end"]%string) in
  let locked := Locked (bs "Permission denied") in
  in_memory 1000000 ["t.tbl"; "-bdl"]%string file file = (fst (outcome ["t.tbl"; "-bdl"]%string file file), Ok (0%N, 0)) /\
  in_memory 1000000 ["t.tbl"; "-b"]%string file locked = (fst (outcome ["t.tbl"; "-b"]%string file locked), Ok (0%N, 5)) /\
  in_memory 1000000 ["t.tbl"]%string locked file = (fst (outcome ["t.tbl"]%string locked file), Ok (0%N, 2)) /\
  in_memory 1000000 ["t.tbl"]%string Absent file = (fst (outcome ["t.tbl"]%string Absent file), Ok (0%N, 0)) /\
  in_memory 1000000 ["-b"; "t.tbl"]%string locked locked = (fst (outcome ["-b"; "t.tbl"]%string locked locked), UB NullDeref).
Proof. vm_compute. auto 6. Qed.

(** One would want nothing to be left allocated. *)
Theorem C99_all_is_freed_refuted :
  exists percent args first second denied_size status s',
    snd (c_check_main (al := bytes_of_memory 1000000) percent false args first second denied_size blank_store) = Ok (status, s') /\ 0 < live (s_heap s').
Proof.
  exists (fun _ _ => []), [bs "t.tbl"], (fun _ => Locked (bs "Permission denied")), (fun _ => Absent), (fun _ => 0).
  eexists _, _. split; [vm_compute; reflexivity|]. vm_compute. auto.
Qed.
Print Assumptions C99_all_is_freed_refuted.
