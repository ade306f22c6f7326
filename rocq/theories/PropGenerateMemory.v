(** * Properties of the generator of built-in tables in memory (C100) *)

From Verif Require Import PropMemory.
From Verif Require Import Base BaseFacts Stdio Table TableSpec Prog ParseTable ParseTableSpec TableFileSpec GenBuiltin CheckTable CheckSpec GenMain PropParseTable PropGen PropCheck
  Mem MemSpec Words WordsSpec CTable TablesSpec LoadSpec LinkedSpec CCheckSpec CGenerate CGenerateSpec CGenerateProofs2 CGenerateProofs3.

Local Open Scope nat_scope.

(** ** C100 *)

(** The generator in a memory of blocks: the table that is loaded, the one that is rebuilt
    from it, and a new block for every escaped text.  It prints what it prints on lists, and
    ends likewise, unless a request for memory was refused: then that is reported, and what
    was printed before is a part of the same.  What is still allocated at the end is known. *)
Theorem C100_generator_in_memory :
  forall (al : allocator) locale args found denied_size s,
    limited al ->
    (forall file, hd_error args = Some file -> sizeable (found file) /\ (Z.of_nat (table_capacity (denied_size file)) <= int_max)%Z) ->
    follows (fun h k => exists file, hd_error args = Some file /\ wants s locale (found file) (denied_size file) h k) (fun _ _ => False)
      (fun status status' s' => status' = status /\ (args = [] /\ s' = s \/ exists file, hd_error args = Some file /\ remains s locale (found file) s'))
      (generator_main locale args found) (c_generator_main locale args found denied_size s).
Proof. exact @generator_main_ok. Qed.
Print Assumptions C100_generator_in_memory.

(** What is printed, put together, is the text that C49 and C60 are about, and undefined behaviour
    is that of C61. *)
Theorem C100_text :
  forall locale file contents,
    match generate_loader locale file contents with
    | Ok text => exists said, generate_says locale file (Readable contents) = (said, Ok tt) /\ prints said text
    | UB why => snd (generate_says locale file (Readable contents)) = UB why
    | Exit _ => False
    end.
Proof. exact generated_text. Qed.
Print Assumptions C100_text.

(** Undefined behaviour: the null pointer when no table was loaded, and the overflow for the
    code 2147483647; no other.  Memory that was freed is not used, nothing is written outside
    of a block, what was not written is not read, loops end. *)
Theorem C100_memory_errors :
  forall (al : allocator) locale args found denied_size s why,
    limited al ->
    (forall file, hd_error args = Some file -> sizeable (found file) /\ (Z.of_nat (table_capacity (denied_size file)) <= int_max)%Z) ->
    snd (c_generator_main locale args found denied_size s) = UB why ->
    exists file, hd_error args = Some file /\
     ((why = NullDeref /\ forall contents, found file = Readable contents -> parse_table locale contents = Ok None) \/
      (why = IntOverflow /\ exists contents ds, found file = Readable contents /\ file_says locale contents ds /\ largest ds = (2 ^ 31 - 1)%N)).
Proof. exact @generator_undefined. Qed.
Print Assumptions C100_memory_errors.

(** With that much memory the whole is printed. *)
Theorem C100_enough :
  forall (al : allocator) locale file rest found denied_size s need,
    limited al -> sizeable (found file) -> (Z.of_nat (table_capacity (denied_size file)) <= int_max)%Z -> generating locale (denied_size file) (found file) need ->
    (forall h k, heap_size h + N.to_nat k <= heap_size (s_heap s) + need -> refusal_of h k = None) ->
    fst (c_generator_main locale (file :: rest) found denied_size s) = fst (generator_main locale (file :: rest) found) /\
    match snd (generator_main locale (file :: rest) found) with
    | Ok status => exists s', snd (c_generator_main locale (file :: rest) found denied_size s) = Ok (status, s') /\ remains s locale (found file) s'
    | UB why => snd (c_generator_main locale (file :: rest) found denied_size s) = UB why
    | Exit _ => False
    end.
Proof. exact @generator_enough. Qed.
Print Assumptions C100_enough.

(** ** Examples *)

Definition no_store : store_t := mkStore [] (fun _ => []).

(** What is printed, the status and the number of blocks left *)
Definition generated (k : N) (args : list string) (found : table_file) : list (stream * str) * res (N * nat) :=
  let% r := c_generator_main (al := bytes_of_memory k) [] (map bs args) (fun _ => found) (fun _ => 0) no_store in
  done (fst r, live (s_heap (snd r))).

Definition quoted : list byte := lines ["default _"; "start"; "0x41 a"; "0x41 \"; "0x200 bb"; "end"]%string.

(** Two codes, one of them with a text that is replaced; the replaced text is lost, too: 5 blocks for either table, 1, and 2 for the escaped texts. *)
Example C100_example :
  let (said, r) := generated 1000000 ["table/t.tbl"]%string (Readable quoted) in
  r = Ok (0%N, 13) /\ generate_loader [] (bs "t.tbl") quoted = Ok (concat (map snd said)) /\ length said = 9 /\
  nth_error said 2 = Some (Stdout, row_text 65 [backslash; backslash]) /\ nth_error said 3 = Some (Stdout, row_text 512 (bs "bb")) /\
  kept [Default (Some (bs "_")); Entry 65 (bs "a"); Entry 65 (bs "\"); Entry 512 (bs "bb")] = 13.
Proof. vm_compute. auto 8. Qed.

(** With little memory, the first escaped text is printed and the second refused; nothing at all is
    printed when the second table does not fit.  The stated amount is 12 bytes more than the least. *)
Example C100_refused :
  let full := fst (generated 1000000 ["t.tbl"]%string (Readable quoted)) in
  let refused := (Stderr, no_memory_left (bs "Cannot allocate memory")) in
  fst (generated 16350 ["t.tbl"]%string (Readable quoted)) = [refused] /\
  generated 16359 ["t.tbl"]%string (Readable quoted) = (firstn 3 full ++ [refused], Exit 1%N) /\
  generated 16360 ["t.tbl"]%string (Readable quoted) = (full, Ok (0%N, 13)) /\
  (let ds := [Default (Some (bs "_")); Entry 65 (bs "a"); Entry 65 (bs "\"); Entry 512 (bs "bb")] in
   N.of_nat (loading_size quoted ds + (64 + 16 * S (N.to_nat (largest ds)) + 3 * text_bytes ds - 2048)) = 16372%N).
Proof. vm_compute. auto 8. Qed.

(** No argument; a file that is not there, that cannot be opened, that is given up; the greatest
    code. *)
Example C100_undefined :
  generated 1000000 [] Absent = ([(Stderr, bs "please specify a file to operate on" ++ [newline])], Ok (255%N, 0)) /\
  generated 1000000 ["t.tbl"]%string Absent = ([], UB NullDeref) /\
  generated 1000000 ["t.tbl"]%string (Locked (bs "Permission denied")) = ([(Stderr, bs "Unable to open translation table: Permission denied" ++ [newline])], UB NullDeref) /\
  snd (generated 1000000 ["t.tbl"]%string (Readable (lines ["start"; "0 a"; "end"]%string))) = UB NullDeref /\
  generated 1000000 ["t.tbl"]%string (Readable (lines ["start"; "0x7fffffff a"; "end"]%string)) = ([], UB IntOverflow).
Proof. vm_compute. auto 8. Qed.

(** One would want nothing to be left allocated. *)
Theorem C100_all_is_freed_refuted :
  exists args found denied_size status s',
    snd (c_generator_main (al := bytes_of_memory 1000000) [] args found denied_size no_store) = Ok (status, s') /\ 0 < live (s_heap s').
Proof.
  exists [bs "t.tbl"], (fun _ => Readable quoted), (fun _ => 0). eexists _, _. split; [vm_compute; reflexivity|]. vm_compute. auto 20.
Qed.
Print Assumptions C100_all_is_freed_refuted.
