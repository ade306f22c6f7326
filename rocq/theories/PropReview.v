(** * Properties of choosing a sequence and loading its tables in memory (C93) *)

From Verif Require Import Base BaseFacts Stdio Table BuiltinTables Filter Spoof ConfigLex ConfigParse ConfigLoad ConfigLoadSpec Prog Warnings Startup
  Mem MemSpec Words WordsSpec CTable CFilelist FilesSpec CConfig LinkedSpec CLoad CLoadSpec CReview CReviewSpec CReviewProofs CReviewProofs2 CReviewProofs3 PropLinked PropLoading PropSequence.

Local Open Scope nat_scope.

(** ** C93 *)

(** sequence_choose_default follows the addresses from sequence to sequence to the one that
    its description on lists finds, and changes nothing. *)
Theorem C93_choose :
  forall (al : allocator) literal s ps qs own fs name nm,
    sequences_at s ps qs None own fs -> NoDup own -> cstr_at (s_heap s) (literal (bs "default")) (bs "default") -> text_in (s_heap s) name nm ->
    exists which, c_sequence_choose_default literal (first ps None) name s = done (which, s) /\
      match sequence_choose_default qs nm, which with
      | None, None => True
      | Some q, Some w => exists ps1 ps2 qs1 qs2, ps = ps1 ++ w :: ps2 /\ qs = qs1 ++ q :: qs2 /\ length ps1 = length qs1
      | _, _ => False
      end.
Proof. intros al. exact choose_in_memory. Qed.
Print Assumptions C93_choose.

(** sequence_review does in memory what its description does on lists, for all files: what is
    printed, the end, the tables.  Each filter has a table of its own, in new memory, that
    nothing was looked up in; nothing but the members for the tables is changed.  If malloc
    refuses a request, that is reported. *)
Theorem C93_review :
  forall (al : allocator), limited al ->
  forall literal static denied_size sys, decent sys denied_size ->
  forall s p next name source ps fs own,
    content s p [next; name; Adr (first ps None); source] -> filters_at s ps fs None own -> NoDup own -> Forall familiar fs ->
    statics_in s static own -> literals_in (s_heap s) literal review_literals ->
    follows (beyond s) (fun _ _ => False) (fun fs' _ s' => reviews s ps own fs' s')
      (review_filters_says (e_datadir (m_env sys)) (table_at_says sys) fs) (c_sequence_review literal static denied_size sys p s).
Proof. exact @review_in_memory. Qed.
Print Assumptions C93_review.

(** From the options to the sequence: config_file_load, sequence_choose_default and
    sequence_review in memory against their descriptions on lists. *)
Theorem C93_prepare :
  forall (al : allocator), limited al ->
  forall literal static denied_size sys, decent sys denied_size ->
  forall s name nm,
    statics_in s static [] -> literals_in (s_heap s) literal review_literals -> literals_in (s_heap s) literal the_literals -> orderly (m_env sys) -> text_in (s_heap s) name nm ->
    follows (fun h n => within s (loading_room (m_env sys)) h n \/ once_loaded s h n)
      (fun h n => within s (loading_room (m_env sys)) h n /\ exists path, In path (candidates (m_env sys)) /\ for_text (contents_of (e_files (m_env sys) path)) n)
      (prepares s) (prepare_says sys None nm) (c_prepare literal static denied_size sys None name s).
Proof. exact @prepare_in_memory. Qed.
Print Assumptions C93_prepare.

Theorem C93_prepare_named :
  forall (al : allocator), limited al ->
  forall literal static denied_size sys, decent sys denied_size ->
  forall s q path name nm,
    statics_in s static [] -> literals_in (s_heap s) literal review_literals -> cstr_at (s_heap s) q path ->
    moderate path (contents_of (e_files (m_env sys) path)) [] -> text_in (s_heap s) name nm ->
    follows (fun h n => within s (length path + 1 + reading_room path (contents_of (e_files (m_env sys) path)) []) h n \/ once_loaded s h n)
      (fun _ n => for_text (contents_of (e_files (m_env sys) path)) n)
      (prepares s) (prepare_says sys (Some path) nm) (c_prepare literal static denied_size sys (Some q) name s).
Proof. exact @prepare_named_in_memory. Qed.
Print Assumptions C93_prepare_named.

(** Every configuration that is loaded has filters of known kinds only, as [C93_review] asks. *)
Theorem C93_known_kinds :
  forall env file c, snd (config_file_load_says env file) = Ok c -> Forall (fun q => Forall familiar (s_filters q)) (cf_sequences c).
Proof. exact load_known. Qed.
Print Assumptions C93_known_kinds.

(** The tables of src/builtin_table.c can be in any memory. *)
Theorem C93_statics :
  forall s, statics_in (all_placed s) (static_at s) [] /\ extends s (all_placed s).
Proof. exact all_placed_statics. Qed.
Print Assumptions C93_statics.

(** ** Examples *)

Definition all_literals : list str := the_literals ++ map bs ["iso8859_1.tbl"; "unicode.tbl"; "safe.tbl"; "lower"; "nope"]%string.
Definition literals_then (rest : list str) : store_t := mkStore (map string_block (all_literals ++ rest)) (fun _ => []).
Definition literal_in (x : str) : ptr := mkPtr (index x all_literals) 0.

Lemma literals_there rest : literals_in (s_heap (literals_then rest)) literal_in review_literals /\ literals_in (s_heap (literals_then rest)) literal_in the_literals.
Proof.
  split; intros x I; cbn [review_literals the_literals map In] in I;
    repeat (destruct I as [<-|I]; [match goal with |- cstr_at _ _ ?t => exists (map Some t ++ [Some NUL]), [] end; splits; [reflexivity|reflexivity|now apply nonul_dec]|]); destruct I.
Qed.

(** The filters of a sequence: kind, and number of rows in use and length of the first row's
    text of its table *)
Fixpoint filter_list (fuel : nat) (p : option ptr) : wmem (list (Z * option (Z * Z))) :=
  match fuel, p with
  | S fuel, Some p =>
    let$ c := int_at p FT_cleaner in
    let$ t := ptr_at p FT_table in
    let$ u := (match t with
               | Some t => let$ u := int_at t T_used in let$ m := int_at t T_max_data_length in wret (Some (u, m))
               | None => wret None
               end) in
    let$ next := ptr_at p FT_next in
    let$ l := filter_list fuel next in
    wret ((c, u) :: l)
  | _, _ => wret []
  end.

Definition prepare_and_list (sys : system) (name : option ptr) : wmem (list (Z * option (Z * Z))) :=
  let$ (c, q) := c_prepare (al := roomy) literal_in (static_at (literals_then [])) (fun _ => 0) sys None name in
  let$ f := ptr_at q SQ_filters in
  filter_list 9 f.

Definition a_system (files : str -> file_at) : system := mkSystem (quiet_env files) (bs "C") demo_pf (bs "detox 2.0.0") (fun _ => None).
Definition a_memory : store_t := all_placed (literals_then []).

(** The default sequence of the built-in configuration; one by name; one that is not there;
    the first one of
    the user's file, with a table that is found instead of the built-in one *)
Definition a_table : str := bs "start
0x41 aa
0x42 bb
end
".

Example C93_example :
  map (fun run => snd (tbind (prepare_and_list (a_system (fst run)) (option_map literal_in (snd run)) a_memory) (fun r => done (fst r))))
    [((fun _ => NoFile), None); ((fun _ => NoFile), Some (bs "lower")); ((fun _ => NoFile), Some (bs "nope"));
     ((fun p => if str_eqb p (bs "/usr/local/share/detox/safe.tbl") then Contents a_table 
        else if str_eqb p (bs "/h/.detoxrc") then Contents (bs "sequence a { safe; wipeup; };") else NoFile), None)] =
  [Ok [(4, Some (55, 5)); (7, None)]; Ok [(4, Some (55, 5)); (2, None); (7, None)]; Exit EXIT_FAILURE; Ok [(4, Some (2, 2)); (7, None)]]%Z.
Proof. vm_compute. reflexivity. Qed.
