(** * Properties of the configuration in memory (C91) *)

From Verif Require Import Base BaseFacts Stdio Filter Spoof ConfigSpec ConfigLex ConfigParse ConfigProofs ConfigLoad ConfigLoadSpec Prog Warnings Startup StartProofs
  Mem MemSpec Words WordsSpec CFilelist FilesSpec CConfig LinkedSpec CConfigProofs8.

Local Open Scope nat_scope.

(** ** C91 *)

(** parse_config_file does in memory what its description does on lists, for every file:
    what is printed, the end, the configuration, the line.  Other memory stays as it is. *)
Theorem C91_parse_config_file :
  forall (al : allocator) files filename path line name pp pc s own,
    cstr_at (s_heap s) filename path -> results_at s pp pc own -> ~ In (p_block filename) own ->
    moderate path (contents_of (files path)) (ignored_of pc) ->
    exists lost,
      follows (within s (reading_room path (contents_of (files path)) (ignored_of pc)))
        (fun h n => within s (reading_room path (contents_of (files path)) (ignored_of pc)) h n /\ for_text (contents_of (files path)) n)
        (leaves s own lost (reading_room path (contents_of (files path)) (ignored_of pc)))
        (parse_config_file_says files path line pc) (c_parse_config_file files filename line name pp s).
Proof. intros al. exact parse_in_memory. Qed.
Print Assumptions C91_parse_config_file.

(** A file that is accepted: in memory are the definitions in force.  Lost are the strings of
    the scanner, the filters and file names of definitions that are replaced, and an empty
    list of files. *)
Theorem C91_accepted :
  forall (al : allocator) files filename path line name pp pc s own contents ts ds printed before,
    cstr_at (s_heap s) filename path -> results_at s pp pc own -> ~ In (p_block filename) own ->
    files path = Contents contents -> moderate path contents (ignored_of pc) ->
    scans contents ts printed -> config_text ts ds -> known before pc ->
    exists said c, stdout_of said = printed /\ in_force (before ++ map (pair path) ds) c /\
      follows (within s (reading_room path contents (ignored_of pc)))
        (fun h n => within s (reading_room path contents (ignored_of pc)) h n /\ for_text contents n)
        (fun _ a s' => exists p own', fst (fst a) = Some p /\ results_at s' (Some p) (Some c) own' /\
           evolves own own' (empty_list pc + strings ts + replaced_by ds (sequences_of pc) + replaced_within ds) s s')
        (said, Ok tt) (c_parse_config_file files filename line name pp s).
Proof. intros al. exact accepted_in_memory. Qed.
Print Assumptions C91_accepted.

(** With enough memory there is no other outcome. *)
Theorem C91_enough :
  forall (al : allocator) files filename path line name pp pc s own,
    cstr_at (s_heap s) filename path -> results_at s pp pc own -> ~ In (p_block filename) own ->
    moderate path (contents_of (files path)) (ignored_of pc) ->
    (forall h n, within s (reading_room path (contents_of (files path)) (ignored_of pc)) h n -> refusal_of h n = None) ->
    match parse_config_file_says files path line pc with
    | (said, Ok b) => exists lost a s', c_parse_config_file files filename line name pp s = (said, Ok (a, s')) /\
        leaves s own lost (reading_room path (contents_of (files path)) (ignored_of pc)) b a s'
    | (said, Exit n) => c_parse_config_file files filename line name pp s = (said, Exit n)
    | (said, UB w) => c_parse_config_file files filename line name pp s = (said, UB w)
    end.
Proof. intros al. exact enough_in_memory. Qed.
Print Assumptions C91_enough.

(** The scanner does not check for memory: at a quoted string NULL is dereferenced. *)
Theorem C91_starved :
  forall (al : allocator) fuel q v line input text rest s message,
    munch input text rest R_qstring -> refusal_of (s_heap s) (size_t (strlen (cstr (tl text)) + 1)) = Some message ->
    c_yyparse (S fuel) q v line input s = quietly (UB NullDeref).
Proof. intros al. exact starved. Qed.
Print Assumptions C91_starved.

(** For the examples: what is there, read from memory. *)
Fixpoint filters_read (fuel : nat) (p : option ptr) : wmem (list Z) :=
  match fuel, p with
  | S fuel, Some p =>
    let$ c := int_at p FT_cleaner in
    let$ next := ptr_at p FT_next in
    let$ l := filters_read fuel next in
    wret (c :: l)
  | _, _ => wret []
  end.

Fixpoint sequences_read (fuel : nat) (p : option ptr) : wmem (list (str * str * list Z)) :=
  match fuel, p with
  | S fuel, Some p =>
    let$ n := ptr_at p SQ_name in
    let$ n := deref n in
    let$ name := bytes (c_read n) in
    let$ n := ptr_at p SQ_source_filename in
    let$ n := deref n in
    let$ source := bytes (c_read n) in
    let$ f := ptr_at p SQ_filters in
    let$ fs := filters_read 9 f in
    let$ next := ptr_at p SQ_next in
    let$ l := sequences_read fuel next in
    wret ((name, source, fs) :: l)
  | _, _ => wret []
  end.

Definition config_read (p : option ptr) : wmem (list (str * str * list Z) * Z) :=
  let$ p := deref p in
  let$ q := ptr_at p CF_sequences in
  let$ l := sequences_read 9 q in
  let$ i := ptr_at p CF_files_to_ignore in
  let$ n := c_filelist_count i in
  wret (l, n).

Definition lines (ls : list string) : str := concat (map (fun l => bs l ++ [newline]) ls).
Definition two_files (p : str) : file_at :=
  if str_eqb p (bs "a") then
    Contents (lines ["sequence x { lower; };"; "sequence y { uncgi; };"; "ignore { filename one; };"]%string)
  else if str_eqb p (bs "b") then
    Contents (lines ["sequence x { safe { builtin ""s""; }; wipeup; };"; "sequence z { lower; };"; "ignore { filename ""two""; };"]%string)
  else NoFile.
Definition two_names : store_t := mkStore [string_block (bs "a"); string_block (bs "b")] (fun _ => []).
Definition roomy : allocator := fun h n => if (N.of_nat (heap_size h) + n <=? 1000000)%N then None else Some (bs "Cannot allocate memory").

Definition read_both {al : allocator} (files : str -> file_at) : wmem (list (str * str * list Z) * Z * N * nat) :=
  let$ (c, line, name) := c_parse_config_file files (mkPtr 0 0) 1 None None in
  let$ (c, line, name) := c_parse_config_file files (mkPtr 1 0) line name c in
  let$ (l, n) := config_read c in
  fun s => done ((l, n, line, live (s_heap s)), s).

(** The blocks: the 2 names of files; the configuration (1), the list with its 2 names (4), 3
    sequences (9), 4 filters, one with a name (5); 7 strings of the scanner; the former filter
    and source of x. *)
Example C91_example :
  match snd (read_both (al := roomy) two_files two_names) with
  | Ok (r, _) => r = ([(bs "x", bs "b", [4; 7]%Z); (bs "y", bs "a", [5%Z]); (bs "z", bs "b", [2%Z])], 2%Z, 7%N, 2 + (1 + 4 + 9 + 5) + 7 + 2)
  | _ => False
  end.
Proof. vm_compute. reflexivity. Qed.

(** An unquoted name that cannot be copied is NULL, and the sequence is called default. *)
Definition once : allocator := fun h n => if ((length h =? 5) && (n =? 2)%N)%bool then Some (bs "Cannot allocate memory") else roomy h n.

Theorem C91_name_kept_refuted :
  exists (al : allocator), limited al /\ exists files s r, snd (read_both (al := al) files s) = Ok r /\
    map (fun q => fst (fst q)) (fst (fst (fst (fst r)))) = [bs "default"; bs "y"; bs "x"; bs "z"] /\
    option_map (fun c => map s_name (cf_sequences c)) (match snd (read_all files [bs "a"; bs "b"] None) with Ok c => c | _ => None end) = Some [bs "x"; bs "y"; bs "z"].
Proof.
  exists once. split.
  - intros h n. unfold refusal_of, once, roomy, limit. destruct (_ && _)%bool; [discriminate|]. destruct (N.leb_spec (N.of_nat (heap_size h) + n) 1000000); [lia|discriminate].
  - exists two_files, two_names. destruct (snd (read_both (al := once) two_files two_names)) as [r| |] eqn:E; [|vm_compute in E; discriminate..].
    exists r. split; [reflexivity|]. apply (f_equal (fun x => match x with Ok (a, _) => Some a | _ => None end)) in E. vm_compute in E. destruct r as [a t]. injection E as <-. vm_compute. auto.
Qed.
Print Assumptions C91_name_kept_refuted.
