(** * Properties of running a sequence of linked filters in memory (C94) *)

From Verif Require Import Base BaseFacts Stdio Table BuiltinTables Filter Spoof ConfigLex ConfigParse ConfigLoad ConfigLoadSpec Prog Warnings Startup
  Mem MemSpec CFilters Words WordsSpec CTable FilesSpec CConfig LinkedSpec LoadSpec CLoad CLoadSpec CReview CReviewSpec CReviewProofs3 CRun CRunSpec CRunProofs3
  PropLinked PropLoading PropSequence PropReview.

Local Open Scope nat_scope.

(** ** C94 *)

(** sequence_run_filters follows the filters from address to address, reads their members,
    and looks bytes up in their tables in memory.  For every sequence, every memory that it is
    in, every name and every allocator it prints and returns what its description on lists
    does, in new memory, and frees the names between the filters.  The sequence is ready for
    the next name: nothing but the counters in the tables has changed, and they by no more
    than the length of the longest name on the way.  If a request for memory is refused, that
    is reported, when memory is as it was, with what was allocated since. *)
Theorem C94_run :
  forall (al : allocator), limited al ->
  forall literal pf s p q k own f name,
    ready_at s p q k own -> Forall familiar (s_filters q) -> literals_in (s_heap s) literal run_literals ->
    cstr_at (s_heap s) f name -> fits name -> (Z.of_nat (k + longest pf (s_filters q) name) <= int_max)%Z ->
    in_memory (s_heap s) (heap_of (w_sequence_run literal pf (Some p) (Some f) s)) (sequence_run_says pf (Some q) (Some name)) /\
    forall said a s', w_sequence_run literal pf (Some p) (Some f) s = (said, Ok (a, s')) -> still_ready s p q k (longest pf (s_filters q) name) own s'.
Proof. exact @run_in_memory. Qed.
Print Assumptions C94_run.

(** Names one after the other: no run changes what a later one does, or what an earlier one
    returned. *)
Theorem C94_names :
  forall (al : allocator), limited al ->
  forall literal pf p q own names fs s k,
    ready_at s p q k own -> Forall familiar (s_filters q) -> literals_in (s_heap s) literal run_literals ->
    Forall2 (cstr_at (s_heap s)) fs names -> Forall fits names -> (Z.of_nat (k + lookups pf (s_filters q) names) <= int_max)%Z ->
    follows (beyond s) (fun _ _ => False)
      (fun rs qs s' => Forall2 (string_in (s_heap s')) qs rs /\ still_ready s p q k (lookups pf (s_filters q) names) own s')
      (run_all_says pf q names) (w_run_all literal pf p fs s).
Proof. exact @run_all_in_memory. Qed.
Print Assumptions C94_names.

(** NULL instead of a sequence is an internal error, NULL instead of a name is returned. *)
Theorem C94_null :
  forall (al : allocator) literal pf f s p,
    w_sequence_run literal pf None f s = w_exit internal_error s /\ w_sequence_run literal pf (Some p) None s = done (None, s).
Proof. intros. split; reflexivity. Qed.
Print Assumptions C94_null.

(** filter_run: a filter of no known kind ends the program, NULL is no filter. *)
Theorem C94_unknown :
  forall (al : allocator) literal pf s p l z f, content s p l -> nth_error l FT_cleaner = Some (Num z) -> (z < 1 \/ 7 < z)%Z ->
    w_filter_run literal pf (Some p) (Some f) s = ([(Stderr, bs "detox: unknown filter " ++ printf_int z ++ [newline])], Exit EXIT_FAILURE).
Proof. exact @unknown_in_memory. Qed.
Print Assumptions C94_unknown.

Theorem C94_null_filter :
  forall (al : allocator) literal pf f s p,
    w_filter_run literal pf None f s = w_exit internal_error s /\ w_filter_run literal pf (Some p) None s = done (None, s).
Proof. intros. split; reflexivity. Qed.
Print Assumptions C94_null_filter.

(** From the options to a clean name, all in one memory: the configuration is read, the
    sequence chosen, its tables loaded, and the sequence run.  What is printed, the end and
    the name are those of the description on lists. *)
Theorem C94_clean :
  forall (al : allocator), limited al ->
  forall literal static denied_size sys, decent sys denied_size ->
  forall s name nm f filename,
    statics_in s static [] -> literals_in (s_heap s) literal review_literals -> literals_in (s_heap s) literal the_literals -> literals_in (s_heap s) literal run_literals ->
    orderly (m_env sys) -> text_in (s_heap s) name nm -> cstr_at (s_heap s) f filename -> fits filename ->
    (forall c q, snd (prepare_says sys None nm) = Ok (c, q) -> (Z.of_nat (longest (m_platform sys) (s_filters q) filename) <= int_max)%Z) ->
    follows (fun h n => (within s (loading_room (m_env sys)) h n \/ once_loaded s h n) \/ once_prepared s h n)
      (fun h n => within s (loading_room (m_env sys)) h n /\ exists path, In path (candidates (m_env sys)) /\ for_text (contents_of (e_files (m_env sys) path)) n)
      (cleans s) (clean_says sys None nm filename)
      ((let$ (c, q) := c_prepare literal static denied_size sys None name in w_sequence_run literal (m_platform sys) (Some q) (Some f)) s).
Proof. exact @clean_in_memory. Qed.
Print Assumptions C94_clean.

Theorem C94_clean_named :
  forall (al : allocator), limited al ->
  forall literal static denied_size sys, decent sys denied_size ->
  forall s q path name nm f filename,
    statics_in s static [] -> literals_in (s_heap s) literal review_literals -> literals_in (s_heap s) literal run_literals -> cstr_at (s_heap s) q path ->
    moderate path (contents_of (e_files (m_env sys) path)) [] -> text_in (s_heap s) name nm -> cstr_at (s_heap s) f filename -> fits filename ->
    (forall c q, snd (prepare_says sys (Some path) nm) = Ok (c, q) -> (Z.of_nat (longest (m_platform sys) (s_filters q) filename) <= int_max)%Z) ->
    follows (fun h n => (within s (length path + 1 + reading_room path (contents_of (e_files (m_env sys) path)) []) h n \/ once_loaded s h n) \/ once_prepared s h n)
      (fun _ n => for_text (contents_of (e_files (m_env sys) path)) n)
      (cleans s) (clean_says sys (Some path) nm filename)
      ((let$ (c, q) := c_prepare literal static denied_size sys (Some q) name in w_sequence_run literal (m_platform sys) (Some q) (Some f)) s).
Proof. exact @clean_named_in_memory. Qed.
Print Assumptions C94_clean_named.

(** ** Examples *)

Definition some_names : list str := [bs "a b&c__d.txt"; bs "x%20(y).TXT"; ["a"; xc3; xa9; "b"]%byte; ["a"; xc0; x80; "b"]%byte; ["a"; xff; "-"; xe2; x82; xac]%byte; bs "utf_8"; bs "uncgi"].
Definition more_literals : list str := all_literals ++ run_literals ++ some_names.
Definition literal_of (x : str) : ptr := mkPtr (index x more_literals) 0.
Definition more_memory : store_t := mkStore (map string_block more_literals) (fun _ => []).

(** The hypotheses on memory hold of this one. *)
Example C94_memory : literals_in (s_heap (all_placed more_memory)) literal_of run_literals.
Proof.
  intros x I. cbn [run_literals map In] in I.
  repeat (destruct I as [<-|I]; [match goal with |- cstr_at _ _ ?t => exists (map Some t ++ [Some NUL]), [] end; splits; [vm_compute; reflexivity|reflexivity|now apply nonul_dec]|]). destruct I.
Qed.

Fixpoint read_all (l : list (option ptr)) : wmem (list (option str)) :=
  match l with
  | [] => wret []
  | None :: l => let$ xs := read_all l in wret (None :: xs)
  | Some p :: l => let$ x := bytes (c_read p) in let$ xs := read_all l in wret (Some x :: xs)
  end.

Definition clean_all (al : allocator) (before : ptr -> wmem unit) (name : option str) (filenames : list str) : talk (list (option str)) :=
  let% (xs, s) := (let$ (c, q) := c_prepare (al := al) literal_of (static_at more_memory) (fun _ => 0) (a_system (fun _ => NoFile)) None (option_map literal_of name) in
    let$ _ := before q in
    let$ rs := w_run_all (al := al) literal_of demo_pf q (map literal_of filenames) in
    read_all rs) (all_placed more_memory) in
  done xs.

Definition nothing (q : ptr) : wmem unit := wret tt.

(** Three sequences of the built-in configuration.  In the last an over-long NUL makes the
    filter write past its buffer (C11). *)
Example C94_example :
  map (fun run => snd (clean_all roomy nothing (fst run) (snd run)))
    [(None, firstn 3 some_names); (Some (bs "uncgi"), firstn 2 some_names);
     (Some (bs "utf_8"), [nth 2 some_names []; nth 4 some_names []]); (Some (bs "utf_8"), [nth 3 some_names []])] =
  [Ok [Some (bs "a_b_and_c_d.txt"); Some (bs "x%20-y.TXT"); Some ["a"; xc3; xa9; "b"]%byte];
   Ok [Some (bs "a_b_and_c_d.txt"); Some (bs "x-y.TXT")];
   Ok [Some ["a"; xc3; xa9; "b"]%byte; Some ["a"; "-"; xe2; x82; xac]%byte]; UB BufferOverflow].
Proof. vm_compute. reflexivity. Qed.

Example C94_printf : map printf_int [0; 8; -13; 2147483647]%Z = map bs ["0"; "8"; "-13"; "2147483647"]%string.
Proof. vm_compute. reflexivity. Qed.

(** One more lookup than a counter can count *)
Definition worn (q : ptr) : wmem unit :=
  let$ f := ptr_at q SQ_filters in
  let$ f := deref f in
  let$ t := ptr_at f FT_table in
  let$ t := deref t in
  assign t T_hits (Int int_max).

Example C94_overflow : snd (clean_all roomy worn None [bs "a b&c__d.txt"]) = UB IntOverflow.
Proof. vm_compute. reflexivity. Qed.

(** There is memory for the sequence and not for the name. *)
Definition fill (n : N) (q : ptr) : wmem unit := fun s => let% (_, s) := bytes (malloc (al := roomy) (n - N.of_nat (heap_size (s_heap s)))) s in done (tt, s).

Example C94_no_memory :
  clean_all roomy (fill 999990) None [bs "a b&c__d.txt"] = ([(Stderr, no_memory_left (bs "Cannot allocate memory"))], Exit EXIT_FAILURE).
Proof. vm_compute. reflexivity. Qed.
