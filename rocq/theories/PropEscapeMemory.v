(** * Properties of escape-utf-8 in memory (C101) *)

From Verif Require Import Base BaseFacts Stdio Table GenBuiltin Filter Prog ProgFacts Inline InlineSpec EscapeSpec Escape EscapeProofs Warnings Startup
  Mem MemSpec Words WordsSpec CTable CConfig CLoadSpec CReviewSpec CReviewProofs3 CRunSpec CWorkSpec CEscape CEscapeSpec CEscapeProofs CEscapeProofs2 PropMemory.

Local Open Scope nat_scope.

(** ** C101 *)

(** The table is built: unless one of the requests, all of them within a stated amount of
    memory, is refused, it is at the address that is returned; what was in memory is as it was,
    the buffer for the texts has been freed, and all other blocks are those of the table, but
    for one for each text that was overwritten. *)
Theorem C101_table :
  forall (al : allocator), limited al ->
  forall m static c blocks, table_seen m static builtin_c_escape_table c blocks ->
    ends (taking m table_takes)
      (fun q m' => exists p c own more, q = Some p /\ table_at m' p generate_c_escape_table c own /\ seldom 95 c /\ s_heap m' = s_heap m ++ None :: more /\
         (forall b, In b own -> length (s_heap m) < b) /\ (forall b, b < length (s_heap m) -> s_words m' b = s_words m b) /\
         live more = length own + t_overwrites generate_c_escape_table /\ (N.of_nat (heap_size more) + 16 <= table_takes)%N)
      (c_generate_c_escape_table static m).
Proof. intros al Lim m static c blocks. exact (generate_ok m static c blocks Lim). Qed.
Print Assumptions C101_table.

(** The whole of main, with the table, the sequence, its filter and the buffers in memory: a run
    does what a run on lists does, and has come just as far, unless a request for memory was
    refused: that is reported, and it ends the program. *)
Theorem C101_runs :
  forall (al : allocator), limited al ->
  forall literal static m, escape_start literal static m ->
  forall pf S (step : S -> forall c, answer c -> S -> Prop) (interference : S -> S -> Prop) s tr s' p',
    runs step interference (w_escape_main literal static pf m) s tr s' p' -> Forall fair_event tr -> ~ escape_worn pf tr ->
    (exists q', runs step interference (escape_main pf) s tr s' q' /\ (as_far_as p' q' \/ at_a_loss (escape_asked m) p')) \/
    ends_short (escape_asked m) step interference (escape_main pf) s tr s' p'.
Proof. exact @escape_runs. Qed.
Print Assumptions C101_runs.

(** And the other way around *)
Theorem C101_on_lists :
  forall (al : allocator), limited al ->
  forall literal static m, escape_start literal static m ->
  forall pf S (step : S -> forall c, answer c -> S -> Prop) (interference : S -> S -> Prop) s tr s' q',
    runs step interference (escape_main pf) s tr s' q' -> Forall fair_event tr -> ~ escape_worn pf tr ->
    (exists p', runs step interference (w_escape_main literal static pf m) s tr s' p' /\ (as_far_as p' q' \/ at_a_loss (escape_asked m) p')) \/
    (exists before after s1 p1, tr = before ++ after /\ runs step interference (w_escape_main literal static pf m) s before s1 p1 /\ at_a_loss (escape_asked m) p1).
Proof. exact @escape_runs_back. Qed.
Print Assumptions C101_on_lists.

(** When main returns, the table and the sequence are still there, unchanged but for the
    statistics; the same goes for what was in memory before. *)
Theorem C101_left :
  forall (al : allocator), limited al ->
  forall literal static m, escape_start literal static m ->
  forall pf S (step : S -> forall c, answer c -> S -> Prop) (interference : S -> S -> Prop) s tr s' n m',
    runs step interference (w_escape_main literal static pf m) s tr s' (Ret (n, m')) -> Forall fair_event tr -> ~ escape_worn pf tr ->
    runs step interference (escape_main pf) s tr s' (Ret n) /\ (exists new, s_heap m' = s_heap m ++ new) /\
    exists q sown k, k <= 95 + lookups pf [escape_filter] (names_in (p_schar pf) tr) /\ set_up literal m' (Some q) None None escape_sequence None None k sown [] [].
Proof. exact @escape_left. Qed.
Print Assumptions C101_left.

(** Whatever standard input holds and whatever malloc does: nothing but printable ASCII and
    newlines is written, the status is 0 or, when there is no memory, that of a failure; and of
    all that can go wrong in C, only the access in front of the buffer (C32) does. *)
Theorem C101_any_input :
  forall (al : allocator), limited al ->
  forall literal static m, escape_start literal static m ->
  forall pf S (step : S -> forall c, answer c -> S -> Prop) (interference : S -> S -> Prop) s tr s' p',
    runs step interference (w_escape_main literal static pf m) s tr s' p' -> Forall fair_event tr -> ~ escape_worn pf tr ->
    Forall (fun c => printable_ascii c \/ c = newline) (stdout_text tr) /\
    match p' with
    | Ret (code, _) => code = 0%N
    | Stop w => w = StopUB BufferUnderread \/ w = StopExit EXIT_FAILURE
    | Call c _ => c = ReadStream None \/ exists out text, c = Print out text
    end.
Proof. exact @escape_any_run. Qed.
Print Assumptions C101_any_input.

(** ** Examples *)

(** A memory to start from *)
Definition escape_address (x : str) : ptr := mkPtr (if str_eqb x (bs "_hidden_null_") then 0 else if str_eqb x (bs "_") then 1 else if str_eqb x (bs "utf_8-escape") then 2 else 3) 0.
Definition escape_strings : store_t := mkStore (map string_block escape_literals) (fun _ => []).
Definition escape_memory : store_t := placed escape_strings builtin_c_escape_table.

Lemma escape_rows : Forall (fun r => (0 < r_key r < 2 ^ 32)%N /\ exists d, r_data r = Some d /\ length d <= 4 /\ nonul d) (t_rows builtin_c_escape_table).
Proof.
  assert (X : forallb (fun r => (0 <? r_key r)%N && (r_key r <? 2 ^ 32)%N &&
                match r_data r with Some d => (length d <=? 4) && forallb (fun c => negb (beq c NUL)) d | None => false end) (t_rows builtin_c_escape_table) = true)
    by (vm_compute; reflexivity).
  rewrite forallb_forall in X. apply Forall_forall. intros r I. specialize (X r I). rewrite !andb_true_iff in X. destruct X as ((A & B) & C).
  split; [split; now apply N.ltb_lt|]. destruct (r_data r) as [d|]; [|discriminate]. rewrite andb_true_iff in C. destruct C as (L & Z).
  exists d. splits; [reflexivity|now apply Nat.leb_le|now apply nonul_dec].
Qed.

Lemma escape_in_range : in_range builtin_c_escape_table.
Proof.
  assert (R := escape_rows). rewrite Forall_forall in R.
  split; [apply Nat.ltb_lt; reflexivity|]. split; [apply Z.leb_le; reflexivity|]. split; [apply Nat.leb_le; reflexivity|]. split; [apply Z.leb_le; reflexivity|]. split; [reflexivity|]. split.
  - apply Forall_forall. intros r I. destruct (R r I) as ((A & B) & d & E & _). split; [exact B|]. rewrite E. split; [lia|discriminate].
  - intros r d I E. destruct (R r I) as (_ & d' & E' & L & _). rewrite E in E'. injection E' as <-.
    exact L.
Qed.

Lemma escape_nonul : texts_nonul builtin_c_escape_table.
Proof.
  assert (R := escape_rows). rewrite Forall_forall in R. split; [discriminate|].
  intros r x I E. destruct (R r I) as (_ & d & E' & _ & Z). rewrite E in E'. now injection E' as <-.
Qed.

Example C101_applies : escape_start escape_address (mkPtr 4 0) escape_memory.
Proof.
  destruct (placed_seen escape_strings builtin_c_escape_table escape_in_range escape_nonul) as (c & own & T & _).
  split; [|split].
  - assert (L : forall b x, nth_error escape_literals b = Some x -> nonul x -> cstr_at (s_heap escape_memory) (mkPtr b 0) x).
    { intros b x E Z. exists (map Some x ++ [Some NUL]), []. splits; [|reflexivity|exact Z].
      unfold escape_memory, placed, escape_strings. cbn [s_heap p_block]. rewrite nth_error_app1 by (rewrite map_length; apply nth_error_Some; congruence).
      exact (map_nth_error string_block b escape_literals E). }
    intros x [<-|[<-|[<-|[<-|[]]]]].
    + apply (L 0); [reflexivity|now apply nonul_dec].
    + apply (L 1); [reflexivity|now apply nonul_dec].
    + apply (L 2); [reflexivity|now apply nonul_dec].
    + apply (L 3); [reflexivity|now apply nonul_dec].
  - exists c, own. exact T.
  - vm_compute. reflexivity.
Qed.

(** The loops that fill the table, with 140 rows and a few characters after 0x7F: a quotation
    mark, a, and three of those characters are looked up; the last one is not in the table *)
Definition a_filling (k : N) : talk (list (option str)) :=
  let al := bytes_of_memory k in
  match
    (let$ work := bytes (malloc 16) in
     let$ table := c_table_resize (Some (mkPtr 4 0)) 140 1 in
     let$ _ := c_store_missing table work 0x20 0x7F in
     let$ i := c_store_range table work 0x80 0x83 (fun i => backslash :: "u"%byte :: hex_upper 4 i) in
     let$ i := c_store_range table work i 0x85 (fun i => backslash :: "U"%byte :: hex_upper 8 i) in
     (fix look keys := match keys with
        | [] => wret []
        | key :: keys =>
          let$ q := c_table_get (Some table) key in
          let$ x := match q with Some q => let$ x := bytes (c_read q) in wret (Some x) | None => wret None end in
          let$ rest := look keys in
          wret (x :: rest)
        end) [0x22; 0x61; 0x82; 0x84; 0x86]%N) escape_memory
  with
  | (said, Ok (x, _)) => (said, Ok x)
  | (said, UB w) => (said, UB w)
  | (said, Exit c) => (said, Exit c)
  end.

Example C101_example :
  map a_filling [10000; 3500]%N =
  [([], Ok [Some [backslash; x22]; Some (bs "a"); Some (backslash :: bs "u0082"); Some (backslash :: bs "U00000084"); None]);
   ([(Stderr, no_memory_left (bs "Cannot allocate memory"))], Exit EXIT_FAILURE)].
Proof. vm_compute. reflexivity. Qed.

(** Memory that is limited in the way the theorems ask for, and that is enough for the table *)
Example C101_memory : limited (bytes_of_memory 40000000) /\ (table_takes + sequence_takes < 31000000)%N.
Proof. split; [apply bytes_limited; reflexivity|reflexivity]. Qed.
