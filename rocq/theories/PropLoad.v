(** * Properties of loading tables into memory (C90) *)

From Verif Require Import Base BaseFacts Stdio Table TableSpec ParseTable ParseTableSpec TableFileSpec TableFileProofs Prog Warnings Startup Mem MemSpec Words WordsSpec CTable TablesSpec
  CParseTable LoadSpec CParseTableProofs2 PropTables.

Local Open Scope nat_scope.

(** parse_table of a file: what it prints and the table are those of the model without
    memory; the table owns new blocks only, and besides these there stay the texts that were
    replaced, as many as the file has entries for codes it had before and default texts that
    another default follows: all that was allocated but the two buffers of 1024 bytes.  If a row is not accepted, nothing but these stays.  If memory is
    refused, [loading_size] bytes more than there were would have been enough. *)
Theorem C90_load :
  forall (al : allocator) s locale contents ds, file_says locale contents ds -> (Z.of_nat (room contents) < int_max)%Z ->
    comes_to (fun h n => exists more, h = s_heap s ++ more /\ heap_size more + N.to_nat n <= loading_size contents ds)
      (fun said q s' =>
        (forall b, b < length (s_heap s) -> s_words s' b = s_words s b) /\
        exists more, s_heap s' = s_heap s ++ more /\
        exists r, parse_table_says locale contents = (said, Ok r) /\
          match r with
          | Some t => exists p own, q = Some p /\ table_at s' p t (mkCounters 0 0 0) own /\ (forall b, In b own -> length (s_heap s) <= b) /\
              live more = length own + replacing (entries ds) + defaults_lost ds /\ heap_size more + 2048 = loading_size contents ds
          | None => exists before c x after, q = None /\ ds = before ++ Entry c x :: after /\ said = [(Stderr, row_rejected c x ++ [newline])] /\
              ~ In 0%N (map fst (entries before)) /\ length (entries before) <= room contents /\ (c = 0%N \/ length (entries before) = room contents) /\
              live more = replacing (entries before) + defaults_lost before
          end)
      (c_parse_table locale contents s).
Proof. intros al. exact parse_in_memory. Qed.
Print Assumptions C90_load.

Theorem C90_enough_memory :
  forall (al : allocator) s locale contents ds, file_says locale contents ds -> (Z.of_nat (room contents) < int_max)%Z ->
    (forall h n, heap_size h + N.to_nat n <= heap_size (s_heap s) + loading_size contents ds -> refusal_of h n = None) ->
    exists said q s', c_parse_table locale contents s = (said, Ok (q, s')).
Proof. intros al. exact enough_memory. Qed.
Print Assumptions C90_enough_memory.

(** Every file says something, so no file makes parse_table do anything undefined. *)
Theorem C90_every_file :
  forall (al : allocator) s locale contents why, (Z.of_nat (room contents) < int_max)%Z -> snd (c_parse_table locale contents s) <> UB why.
Proof. intros al. exact parse_defined. Qed.
Print Assumptions C90_every_file.

(** table_free of what was loaded. *)
Theorem C90_load_and_free :
  forall (al : allocator) s locale contents ds, file_says locale contents ds -> (Z.of_nat (room contents) < int_max)%Z ->
    ~ In 0%N (map fst (entries ds)) -> length (entries ds) <= room contents ->
    comes_to (fun h n => exists more, h = s_heap s ++ more /\ heap_size more + N.to_nat n <= loading_size contents ds)
      (fun said _ s' => said = [] /\ (forall b, b < length (s_heap s) -> s_words s' b = s_words s b) /\
        exists more, s_heap s' = s_heap s ++ more /\ live more = replacing (entries ds) + defaults_lost ds)
      ((let$ q := c_parse_table locale contents in c_table_free q) s).
Proof. intros al. exact load_and_free. Qed.
Print Assumptions C90_load_and_free.

(** Two texts, one of them twice, and two defaults: of the nine strings and blocks that were
    allocated, two stay. *)
Definition loaded_twice : list byte := bs "default ""?""" ++ [newline] ++ bs "default _" ++ [newline] ++ bs "start" ++ [newline] ++
  bs "0xe4 ae" ++ [newline] ++ bs "# umlaut" ++ [newline] ++ bs "0xe4 'a'" ++ [newline] ++ bs "246 o" ++ [newline] ++ bs "end" ++ [newline].

Example C90_example :
  match c_parse_table (al := megabyte) [] loaded_twice two_strings with
  | ([], Ok (Some p, s)) =>
    live (s_heap s) = live (s_heap two_strings) + 5 + 2 /\
    match (let$ q := c_table_get (Some p) 228 in let$ x := (match q with Some q => bytes (c_read q) | None => wret [] end) in let$ _ := c_table_free (Some p) in wret x) s with
    | ([], Ok (x, s')) => x = bs "a" /\ live (s_heap s') = live (s_heap two_strings) + 2
    | _ => False
    end
  | _ => False
  end.
Proof. vm_compute. auto. Qed.

Example C90_rejected :
  match c_parse_table (al := megabyte) [] (bs "start" ++ [newline] ++ bs "33 x" ++ [newline] ++ bs "0x0 y" ++ [newline]) two_strings with
  | (said, Ok (None, s)) => said = [(Stderr, bs "Failed to add row 0x0000 ""y"" to translation table" ++ [newline])] /\ live (s_heap s) = live (s_heap two_strings)
  | _ => False
  end.
Proof. vm_compute. auto. Qed.

(** So a file can be loaded and freed, and memory is lost. *)
Theorem C90_everything_returned_refuted :
  exists (al : allocator), limited al /\ exists s contents s',
    (let$ q := c_parse_table [] contents in c_table_free q) s = done (tt, s') /\ live (s_heap s') <> live (s_heap s).
Proof.
  exists megabyte. split; [exact megabyte_limited|]. exists two_strings, loaded_twice. eexists. split; [vm_compute; reflexivity|]. vm_compute. discriminate.
Qed.
Print Assumptions C90_everything_returned_refuted.

(** A file that is there but cannot be opened: a message, and the table of two blocks is lost. *)
Theorem C90_denied :
  forall (al : allocator) s file_size message, (Z.of_nat (table_capacity file_size) <= int_max)%Z ->
    comes_to (fun h k => h = s_heap s /\ k = 64%N \/ h = s_heap s ++ [blank 64] /\ k = (16 * N.of_nat (new_size (Z.of_nat (table_capacity file_size))))%N)
      (fun said q s' => said = [(Stderr, bs "Unable to open translation table: " ++ message ++ [newline])] /\ q = None /\
        (forall b, b < length (s_heap s) -> s_words s' b = s_words s b) /\ exists more, s_heap s' = s_heap s ++ more /\ live more = 2)
      (c_parse_denied file_size message s).
Proof. intros al. exact denied_in_memory. Qed.
Print Assumptions C90_denied.
