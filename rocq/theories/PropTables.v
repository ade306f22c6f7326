(** * Properties of tables and lists of files in memory (C88, C89) *)

From Verif Require Import Base BaseFacts Stdio Table TableSpec TableProofs Prog Warnings Mem MemSpec Words WordsSpec CTable TablesSpec CTableProofs CTableProofs2 CTableProofs3
  CFilelist FilesSpec CFilelistProofs.

Local Open Scope nat_scope.

(** ** C88 *)

(** table_init: two blocks, an empty table. *)
Theorem C88_init :
  forall (al : allocator) s n, (n <= int_max)%Z ->
    ends (fun h k => h = s_heap s /\ k = 64%N \/ h = s_heap s ++ [blank 64] /\ k = (16 * N.of_nat (new_size n))%N)
         (fun p s' => p = mkPtr (length (s_heap s)) 0 /\
            table_at s' p (table_init n) (mkCounters 0 0 0) [length (s_heap s); S (length (s_heap s))] /\
            s_heap s' = s_heap s ++ [blank 64; blank (16 * N.of_nat (new_size n))] /\
            same_but [length (s_heap s); S (length (s_heap s))] s s' /\ refusal_of (s_heap s) 64 = None)
         (c_table_init n s).
Proof. intros al. exact init_in_memory. Qed.
Print Assumptions C88_init.

(** table_get: the answer is a string of the table; only the statistics change. *)
Theorem C88_get :
  forall s p t c own key, table_at s p t c own -> sound c ->
    exists q s', c_table_get (Some p) key s = done (q, s') /\
      string_in (s_heap s') q (table_get t key) /\ (forall q', q = Some q' -> In (p_block q') own) /\
      table_at s' p t (counted t key c) own /\ s_heap s' = s_heap s /\ same_but [p_block p] s s'.
Proof. exact get_in_memory. Qed.
Print Assumptions C88_get.

(** table_put: a copy of the string, which the table owns; the block of a text that is
    replaced is still there, but not the table's any more. *)
Theorem C88_put :
  forall (al : allocator) s p t c own key d data,
    table_at s p t c own -> cstr_at (s_heap s) d data -> (strlen data < 2 ^ 31)%N -> (key < 2 ^ 32)%N ->
    (Z.of_nat (t_overwrites t) < int_max)%Z ->
    ends (fun h n => h = s_heap s /\ n = (strlen data + 1)%N)
         (fun off s' => exists own',
            off = match snd (table_put t key data) with Some i => Z.of_nat i | None => (-1)%Z end /\
            table_at s' p (fst (table_put t key data)) c own' /\ same_but own s s' /\
            match snd (table_put t key data) with
            | None => s' = s /\ own' = own
            | Some _ => s_heap s' = s_heap s ++ [string_block data] /\ incl own' (length (s_heap s) :: own) /\
                        length own' + t_overwrites (fst (table_put t key data)) = length own + t_overwrites t + 1
            end)
         (c_table_put (Some p) key d s).
Proof. intros al. exact put_in_memory. Qed.
Print Assumptions C88_put.

(** table_resize: the copy is the one made on lists, in blocks of its own; the table copied is
    as it was.  Only the copy is allocated, and it takes no more than its size, the rows and
    the texts: what fits that is not refused. *)
Theorem C88_resize :
  forall (al : allocator) s p t c own n (hashed : bool), limited al ->
    table_at s p t c own -> wf t -> (n <= int_max)%Z -> (Z.of_nat (t_overwrites t) < int_max)%Z ->
    ends (fun h k => exists more, h = s_heap s ++ more /\ heap_size more + N.to_nat k <= copy_room t n)
         (fun q s' => q = mkPtr (length (s_heap s)) 0 /\
            exists own' more, table_at s' p t c own /\ table_at s' q (table_resize t n hashed) fresh_counters own' /\ s_heap s' = s_heap s ++ more /\
              (forall b, b < length (s_heap s) -> s_words s' b = s_words s b) /\ (forall b, In b own' -> length (s_heap s) <= b) /\
              live more = length own' /\ t_overwrites (table_resize t n hashed) = t_overwrites t /\ heap_size more <= copy_room t n)
         (c_table_resize (Some p) n (if hashed then 1 else 0) s).
Proof. exact @resize_in_memory. Qed.
Print Assumptions C88_resize.

(** table_free: all blocks of the table, and no others. *)
Theorem C88_free :
  forall s p t c own, table_at s p t c own -> t_builtin t = false ->
    exists h', c_table_free (Some p) s = done (tt, mkStore h' (s_words s)) /\ without own (s_heap s) h' /\
               live h' + length own = live (s_heap s).
Proof. exact free_in_memory. Qed.
Print Assumptions C88_free.

(** A built-in table is not freed; without a table nothing is stored, found or freed. *)
Theorem C88_builtin_and_null :
  (forall s p t c own, table_at s p t c own -> t_builtin t = true -> c_table_free (Some p) s = done (tt, s)) /\
  (forall (al : allocator) s key d, c_table_put None key d s = done ((-1)%Z, s) /\ c_table_get None key s = done (None, s) /\ c_table_free None s = done (tt, s)).
Proof.
  split; [|auto]. intros s p t c own (rp & ds & df & CP & _) B. unfold c_table_free.
  rewrite (WordsFacts.wbind_done _ _ _ _ _ (WordsFacts.int_at_ok _ _ _ 10 _ CP eq_refl : int_at p T_builtin s = _)). now rewrite B.
Qed.
Print Assumptions C88_builtin_and_null.

(** From table_init to table_free, with any stores, lookups, resets and rebuilding between:
    every step is defined and the lookups answer what they do on lists.  Afterwards as many
    blocks are left as texts were replaced; everything else is as it was. *)
Theorem C88_life :
  forall (al : allocator), limited al -> forall s text n l,
    Forall (usable (s_heap s) text) l -> (n <= int_max)%Z -> (Z.of_nat (length l) <= int_max)%Z ->
    ends (fun _ _ => True)
         (fun answers s' => answers = snd (uses text (table_init n) l) /\
            (forall b, b < length (s_heap s) -> s_words s' b = s_words s b) /\
            exists more, s_heap s' = s_heap s ++ more /\ live more = t_overwrites (fst (uses text (table_init n) l)))
         (c_life n l s).
Proof. intros al. exact life_in_memory. Qed.
Print Assumptions C88_life.

(** Without rebuilding: of the stores that are accepted, those under a key that there was
    before. *)
Theorem C88_lost :
  forall text n l, Forall (fun u => ~ resizes u) l ->
    t_overwrites (fst (uses text (table_init n) l)) = replacing (accepted (new_size n) (stores text l)).
Proof. exact lost_in_memory. Qed.
Print Assumptions C88_lost.

(** A table that was freed cannot be used: the pointer is to memory that is not there. *)
Theorem C88_freed :
  forall (al : allocator) s p t c own key data, table_at s p t c own -> t_builtin t = false -> key <> 0%N ->
    exists s', c_table_free (Some p) s = done (tt, s') /\
      c_table_free (Some p) s' = quietly (UB BadPointer) /\ c_table_get (Some p) key s' = quietly (UB BadPointer) /\
      c_table_put (Some p) key data s' = quietly (UB BadPointer).
Proof. intros al. exact freed_table. Qed.
Print Assumptions C88_freed.

(** The members of new memory have no value. *)
Theorem C88_new_members :
  forall (al : allocator) size k s p s' i, new_words size k s = done (p, s') -> i < k -> int_at p i s' = quietly (UB Uninitialised) /\ ptr_at p i s' = quietly (UB Uninitialised).
Proof. intros al. exact new_members. Qed.
Print Assumptions C88_new_members.

(** 1000000 bytes of memory. *)
Definition megabyte : allocator := fun h n => if (N.of_nat (heap_size h) + n <=? 1000000)%N then None else Some (bs "Cannot allocate memory").

Lemma megabyte_limited : limited megabyte.
Proof. intros h n. unfold refusal_of, megabyte, limit. destruct (N.leb_spec (N.of_nat (heap_size h) + n) 1000000); [lia|discriminate]. Qed.

Definition two_strings : store_t := mkStore [string_block (bs "a"); string_block (bs "bc")] (fun _ => []).

Example C88_example :
  let l := [Puts 228 (mkPtr 0 0); Gets 228; Puts 33 (mkPtr 0 0); Puts 228 (mkPtr 1 0); Gets 228; Resets; Resizes 7 false; Gets 228; Gets 33; Gets 34]%N in
  match snd (c_life (al := megabyte) 3 l two_strings) with
  | Ok (answers, s) => answers = [Some (bs "a"); Some (bs "bc"); Some (bs "bc"); Some (bs "a"); None] /\ live (s_heap s) = 3
  | _ => False
  end.
Proof. vm_compute. auto. Qed.

(** 301 bytes: two strings, a table of three rows with two texts, and its copy with seven. *)
Example C88_resize_example :
  let al k : allocator := fun h n => if (N.of_nat (heap_size h) + n <=? k)%N then None else Some (bs "Cannot allocate memory") in
  let l := [Puts 228 (mkPtr 0 0); Puts 33 (mkPtr 0 0); Resizes 7 false; Gets 228]%N in
  let answers k := match snd (c_life (al := al k) 3 l two_strings) with Ok (answers, _) => Some answers | _ => None end in
  answers 301%N = Some [Some (bs "a")] /\ answers 300%N = None.
Proof. vm_compute. auto. Qed.

(** So table_free does not give back all that table_put had taken. *)
Theorem C88_everything_returned_refuted :
  exists (al : allocator), limited al /\ exists s n l answers s',
    c_life (al := al) n l s = done (answers, s') /\ live (s_heap s') <> live (s_heap s).
Proof.
  exists megabyte. split; [exact megabyte_limited|].
  exists two_strings, 3%Z, [Puts 228 (mkPtr 0 0); Puts 228 (mkPtr 1 0)]%N. do 2 eexists. split; [vm_compute; reflexivity|]. vm_compute. discriminate.
Qed.
Print Assumptions C88_everything_returned_refuted.

(** The statistics are ints: the 2^31-th lookup of a key is undefined, in any table. *)
Theorem C88_too_many_lookups :
  forall s p t own key, table_at s p t (mkCounters 0 0 0) own -> key <> 0%N ->
    c_lookups p key (S (Z.to_nat int_max)) s = quietly (UB IntOverflow).
Proof. exact statistics_overflow. Qed.
Print Assumptions C88_too_many_lookups.

Theorem C88_any_number_of_lookups_refuted :
  exists (al : allocator) s p s' n, limited al /\ c_table_init 3 s = done (p, s') /\ c_lookups p 228 n s' = quietly (UB IntOverflow).
Proof.
  pose proof (C88_init megabyte two_strings 3 ltac:(vm_compute; discriminate)) as E.
  exists megabyte, two_strings. remember (c_table_init 3 two_strings) as r eqn:R. destruct E as [p s' (_ & T & _)|h k message _ _].
  - exists p, s', (S (Z.to_nat int_max)). splits; [exact megabyte_limited|auto|]. exact (C88_too_many_lookups _ _ _ _ 228%N T ltac:(discriminate)).
  - exfalso. apply (f_equal (fun r => match snd r with Exit _ => true | _ => false end)) in R. vm_compute in R. discriminate.
Qed.
Print Assumptions C88_any_number_of_lookups_refuted.

(** ** C89 *)

Theorem C89_init :
  forall (al : allocator) s,
    ends (fun h k => h = s_heap s /\ k = 24%N \/ h = s_heap s ++ [blank 24] /\ k = 128%N)
         (fun p s' => p = mkPtr (length (s_heap s)) 0 /\ list_at s' p [] 16 0 [length (s_heap s); S (length (s_heap s))] /\
            s_heap s' = s_heap s ++ [blank 24; blank 128] /\ same_but [length (s_heap s); S (length (s_heap s))] s s')
         (c_filelist_init s).
Proof. intros al. exact list_init. Qed.
Print Assumptions C89_init.

(** filelist_get: the file under the cursor, or NULL behind the last one. *)
Theorem C89_get :
  forall s p files max cursor own, list_at s p files max cursor own ->
    exists q s', c_filelist_get (Some p) s = done (q, s') /\ string_in (s_heap s') q (nth_error files cursor) /\
      list_at s' p files max (onward files cursor) own /\ s_heap s' = s_heap s /\ same_but [p_block p] s s'.
Proof. exact list_get. Qed.
Print Assumptions C89_get.

(** filelist_put: a copy of the string at the end; a larger array if need be, the former one
    being freed; nothing else changes. *)
Theorem C89_put :
  forall (al : allocator) s p files cursor own max d name, list_at s p files max cursor own ->
    cstr_at (s_heap s) d name -> ~ In (p_block d) own -> fits name -> (Z.of_nat (roomier files max) <= int_max)%Z ->
    ends (fun h k => (k = (8 * N.of_nat (roomier files max))%N \/ k = (strlen name + 1)%N) /\
                     heap_size h + N.to_nat k <= heap_size (s_heap s) + 8 * roomier files max + (length name + 1))
         (fun (_ : unit) s' => exists own', list_at s' p (files ++ [name]) (roomier files max) 0 own' /\
            (forall b, b < length (s_heap s) -> ~ In b own -> nth_error (s_heap s') b = nth_error (s_heap s) b /\ s_words s' b = s_words s b) /\
            (forall b, In b own' -> In b own \/ length (s_heap s) <= b) /\
            length own' = S (length own) /\ live (s_heap s') = S (live (s_heap s)))
         (c_filelist_put (Some p) d s).
Proof.
  intros al s p files cursor own max d name T Cd Nd F L. eapply WordsFacts.ends_weaken; [exact (list_put s p files cursor own max d name T Cd Nd F L)|auto|].
  intros [] s' (own' & T' & (M1 & M2 & _ & M4) & Ln & _). exists own'. splits; auto. lia.
Qed.
Print Assumptions C89_put.

Theorem C89_free :
  forall s p files max cursor own, list_at s p files max cursor own ->
    exists h', c_filelist_free (Some p) s = done (tt, mkStore h' (s_words s)) /\ without own (s_heap s) h' /\ live h' + length own = live (s_heap s).
Proof. exact list_free. Qed.
Print Assumptions C89_free.

(** Without a list: nothing to count, read, reset or free; adding ends the program. *)
Theorem C89_null :
  forall (al : allocator) s d, c_filelist_count None s = done (0%Z, s) /\ c_filelist_get None s = done (None, s) /\
    c_filelist_reset None s = done (tt, s) /\ c_filelist_free None s = done (tt, s) /\
    c_filelist_put None d s = ([(Stderr, bs "detox: could not write to a null filelist" ++ [newline])], Exit EXIT_FAILURE).
Proof. intros. splits; reflexivity. Qed.
Print Assumptions C89_null.

(** From filelist_init to filelist_free: every step is defined, the answers are those of a
    list with a cursor, and no memory is left in use. *)
Theorem C89_life :
  forall (al : allocator) s text l, bounded (s_heap s) -> (forall d, In (Adds d) l -> cstr_at (s_heap s) d (text d)) -> (Z.of_nat (length l + 15) <= int_max)%Z ->
    ends (fun _ _ => True)
         (fun r s' => r = list_uses text [] 0 l /\ (forall b, b < length (s_heap s) -> s_words s' b = s_words s b) /\
            exists more, s_heap s' = s_heap s ++ repeat None more)
         (c_list_life l s).
Proof. intros al. exact list_life. Qed.
Print Assumptions C89_life.

(** A list that was freed cannot be used. *)
Theorem C89_freed :
  forall (al : allocator) s p files max cursor own name, list_at s p files max cursor own ->
    exists s', c_filelist_free (Some p) s = done (tt, s') /\
      c_filelist_free (Some p) s' = quietly (UB BadPointer) /\ c_filelist_get (Some p) s' = quietly (UB BadPointer) /\
      c_filelist_put (Some p) name s' = quietly (UB BadPointer) /\ c_filelist_count (Some p) s' = quietly (UB BadPointer).
Proof. intros al. exact freed_list. Qed.
Print Assumptions C89_freed.

(** The size of the array is an int: a list with 2^31 - 16 files cannot grow. *)
Theorem C89_too_many_files :
  forall (al : allocator) s p files cursor own max d, list_at s p files max cursor own -> length files = max -> (int_max < Z.of_nat max + 16)%Z ->
    c_filelist_put (Some p) d s = quietly (UB IntOverflow).
Proof. intros al. exact list_put_overflow. Qed.
Print Assumptions C89_too_many_files.

Example C89_example :
  let a := mkPtr 0 0 in let bc := mkPtr 1 0 in
  let l := [Reads; Adds a; Adds bc; Reads; Reads; Reads; Reads] ++ repeat (Adds a) 15 ++ [Counts; Reads; Reads; Rewinds; Reads] in
  match snd (c_list_life (al := megabyte) l two_strings) with
  | Ok (r, s) => r = [File None; File (Some (bs "a")); File (Some (bs "bc")); File None; File (Some (bs "a")); Number 17; File (Some (bs "a")); File (Some (bs "bc")); File (Some (bs "a"))]
                 /\ s_heap s = s_heap two_strings ++ repeat None 20
  | _ => False
  end.
Proof. vm_compute. auto. Qed.
