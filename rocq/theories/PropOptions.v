(** * Properties of the options in memory (C96) *)

From Verif Require Import Base BaseFacts Stdio Filter Filelist FileSpec Prog Warnings File Options Startup Mem MemSpec Words WordsSpec CFilelist FilesSpec LinkedSpec CWorkSpec COptions COptionsSpec COptionsProofs
  BaseFacts PropSequence PropFile PropMemory.

Local Open Scope nat_scope.

(** ** C96 *)

(** The options are allocated, set as getopt_long returns them, with copies of the arguments of
    -f and -s, and the files are put into a new list: what is printed, how it ends and what is in
    the options is what the description on lists gives, all else in memory is as it was.  The
    only other outcome is a request for memory that was refused, which is reported and ends the
    program; then more memory was needed than [options_room]. *)
Theorem C96_options :
  forall (al : allocator) pf getenv package argv args detox_sequence s,
    Forall2 (cstr_at (s_heap s)) args argv -> text_in (s_heap s) detox_sequence (getenv (bs "DETOX_SEQUENCE")) -> modest argv ->
    follows (within s (options_room argv)) (fun _ _ => False) (fun o p s' => gives_options s argv o p s')
      (parse_options_says pf getenv package argv)
      (c_parse_options_getopt package (match getenv (bs "POSIXLY_CORRECT") with Some _ => true | None => false end) detox_sequence args s).
Proof. exact @options_in_memory. Qed.
Print Assumptions C96_options.

(** With that much memory nothing is refused. *)
Theorem C96_enough_memory :
  forall (al : allocator) pf getenv package argv args detox_sequence s,
    Forall2 (cstr_at (s_heap s)) args argv -> text_in (s_heap s) detox_sequence (getenv (bs "DETOX_SEQUENCE")) -> modest argv ->
    (forall h n, heap_size h + N.to_nat n <= heap_size (s_heap s) + options_room argv -> refusal_of h n = None) ->
    let pure := parse_options_says pf getenv package argv in
    let t := c_parse_options_getopt package (match getenv (bs "POSIXLY_CORRECT") with Some _ => true | None => false end) detox_sequence args s in
    fst t = fst pure /\
    match snd pure with
    | Ok o => exists p s', snd t = Ok (p, s') /\ gives_options s argv o p s'
    | UB w => snd t = UB w
    | Exit c => snd t = Exit c
    end.
Proof. exact @options_enough. Qed.
Print Assumptions C96_enough_memory.

(** ** Examples *)

(** The first string is the value of DETOX_SEQUENCE, the others are the command line. *)
Definition line_memory (argv : list str) : store_t := mkStore (map string_block (bs "utf_8" :: argv)) (fun _ => []).
Definition line_args (argv : list str) : list ptr := map (fun i => mkPtr i 0) (seq 1 (length argv)).
Definition line_env (x : str) : option str := if str_eqb x (bs "DETOX_SEQUENCE") then Some (bs "utf_8") else None.

(** All members, the names as strings, and the files from the list *)
Fixpoint all_from (n : nat) (l : option ptr) {al : allocator} : wmem (list str) :=
  match n with
  | 0 => wret []
  | S n =>
    let$ q := c_filelist_get l in
    match q with
    | None => wret []
    | Some q => let$ f := bytes (c_read q) in let$ fs := all_from n l in wret (f :: fs)
    end
  end.

Definition read_opt {al : allocator} (q : option ptr) : wmem (option str) :=
  match q with None => wret None | Some q => let$ s := bytes (c_read q) in wret (Some s) end.

Definition seen_options {al : allocator} (p : ptr) : wmem (list Z * option str * option str * option (list str)) :=
  let$ a := int_at p OP_dry_run in let$ b := int_at p OP_is_inline_bin in let$ c := int_at p OP_is_inline_mode in let$ d := int_at p OP_list_sequences in
  let$ e := int_at p OP_recurse in let$ f := int_at p OP_special in let$ g := int_at p OP_verbose in
  let$ n := ptr_at p OP_sequence_name in let$ n := read_opt n in
  let$ k := ptr_at p OP_check_config_file in let$ k := read_opt k in
  let$ l := ptr_at p OP_files in
  match l with
  | None => wret ([a; b; c; d; e; f; g], n, k, None)
  | Some l => let$ fs := all_from 30 (Some l) in wret ([a; b; c; d; e; f; g], n, k, Some fs)
  end.

Definition line_run (k : N) (argv : list str) : list (stream * str) * res (list Z * option str * option str * option (list str)) :=
  let t := (let$ p := c_parse_options_getopt (al := bytes_of_memory k) (bs "detox 2") false (Some (mkPtr 0 0)) (line_args argv) in seen_options (al := bytes_of_memory k) p) (line_memory argv) in
  (fst t, match snd t with Ok (a, _) => Ok a | UB w => UB w | Exit c => Exit c end).

Definition a_line : list str := map bs ["bin/detox"; "-nvv"; "a b"; "-slower"; "--recursive"; "-f"; "conf"; "c"]%string.

Example a_line_seen : line_run 20000 a_line = ([], Ok ([1; 0; 0; 0; 1; 0; 2]%Z, Some (bs "lower"), Some (bs "conf"), Some (map bs ["a b"; "c"]%string))).
Proof. vm_compute. reflexivity. Qed.

Example a_line_described :
  match parse_options_says demo_pf line_env (bs "detox 2") a_line with
  | ([], Ok o) => o_dry_run o = true /\ o_recurse o = true /\ o_verbose o = 2%N /\ o_sequence_name o = Some (bs "lower") /\ o_check_config_file o = Some (bs "conf") /\ items (o_files o) = map bs ["a b"; "c"]%string
  | _ => False
  end.
Proof. vm_compute. repeat split. Qed.

(** DETOX_SEQUENCE, inline-detox, and -L *)
Example inline_seen : line_run 20000 (map bs ["/bin/inline-detox"]%string) = ([], Ok ([0; 1; 1; 0; 0; 0; 0]%Z, Some (bs "utf_8"), None, Some [])).
Proof. vm_compute. reflexivity. Qed.

Example listing_seen : line_run 20000 (map bs ["detox"; "-L"; "x"]%string) = ([], Ok ([0; 0; 0; 1; 0; 0; 0]%Z, Some (bs "utf_8"), None, None)).
Proof. vm_compute. reflexivity. Qed.

(** More files than fit into the first array of the list *)
Example many_seen : line_run 20000 (bs "detox" :: repeat (bs "f") 17 ++ [bs "g"]) =
  ([], Ok ([0; 0; 0; 0; 0; 0; 0]%Z, Some (bs "utf_8"), None, Some (repeat (bs "f") 17 ++ [bs "g"]))).
Proof. vm_compute. reflexivity. Qed.

(** A mistake, no files, and too little memory *)
Example mistake_seen : line_run 20000 (map bs ["detox"; "-x"]%string) =
  ([(Stderr, bs "detox: invalid option -- 'x'" ++ [newline]); (Stdout, usage_message)], Exit 0).
Proof. vm_compute. reflexivity. Qed.

Example no_files_seen : line_run 20000 (map bs ["detox"; "-v"]%string) = ([(Stdout, usage_message)], Exit 1).
Proof. vm_compute. reflexivity. Qed.

Example too_little_seen : line_run 130 a_line = ([(Stderr, no_memory_left (bs "Cannot allocate memory"))], Exit 1).
Proof. vm_compute. reflexivity. Qed.

(** The assumptions of the theorems hold of this line. *)
Example a_line_there :
  Forall2 (cstr_at (s_heap (line_memory a_line))) (line_args a_line) a_line /\ text_in (s_heap (line_memory a_line)) (Some (mkPtr 0 0)) (line_env (bs "DETOX_SEQUENCE")) /\ modest a_line.
Proof.
  splits; [| |vm_compute; discriminate].
  - repeat (constructor; [eexists _, []; splits; [reflexivity|reflexivity|now apply nonul_dec]|]). constructor.
  - eexists _, []. splits; [reflexivity|reflexivity|now apply nonul_dec].
Qed.
