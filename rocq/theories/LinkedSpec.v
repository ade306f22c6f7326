(** * Specification: sequences and filters in memory *)

From Verif Require ConfigParse.
From Verif Require Import Base Stdio Filter Spoof ConfigSpec Prog Warnings Mem MemSpec Words WordsSpec FilesSpec.

Local Open Scope nat_scope.

(** ** What is in memory *)

(** src/detox_struct.h:17-25 *)
Definition code_of (c : cleaner) : Z :=
  match c with
  | F_iso8859_1 => 1 | F_lower => 2 | F_max_length => 3 | F_safe => 4 | F_uncgi => 5 | F_utf_8 => 6 | F_wipeup => 7
  | F_unknown v => int_of v
  end.

(** The address of the first of these structures; of [last] if there is none. *)
Definition first (ps : list ptr) (last : option ptr) : option ptr := match ps with p :: _ => Some p | [] => last end.

(** The filters [fs] are at [ps], each with the address of the next one, the last one with
    [last].  No table is loaded.  They consist of the blocks [own]. *)
Fixpoint filters_at (s : store_t) (ps : list ptr) (fs : list filter_t) (last : option ptr) (own : list nat) : Prop :=
  match ps, fs with
  | [], [] => own = []
  | p :: ps, f :: fs =>
    exists filename builtin rest,
      content s p [Adr (first ps last); Num (code_of (f_cleaner f)); Adr filename; Adr builtin;
                   Num (if f_remove_trailing f then 1 else 0); Num (Z.of_N (f_max_length f)); Adr None] /\
      string_in (s_heap s) filename (f_filename f) /\ string_in (s_heap s) builtin (f_builtin f) /\ f_table f = None /\
      own = p_block p :: block_list [filename; builtin] ++ rest /\ filters_at s ps fs last rest
  | _, _ => False
  end.

(** The sequences [qs] are at [ps].  They consist of the blocks [own], and their filters of
    the blocks [filters]. *)
Fixpoint sequences_at (s : store_t) (ps : list ptr) (qs : list sequence_t) (last : option ptr) (own : list nat) (filters : list (list nat)) : Prop :=
  match ps, qs with
  | [], [] => own = [] /\ filters = []
  | p :: ps, q :: qs =>
    exists name source fps fown rest frest,
      content s p [Adr (first ps last); Adr (Some name); Adr (first fps None); Adr source] /\
      string_in (s_heap s) (Some name) (Some (s_name q)) /\ string_in (s_heap s) source (s_source q) /\
      filters_at s fps (s_filters q) None fown /\
      own = p_block p :: block_list [Some name; source] ++ rest /\ filters = fown :: frest /\ sequences_at s ps qs last rest frest
  | _, _ => False
  end.

(** [p] is NULL, or the address of a list of these files; the first one is the next to be
    read. *)
Definition ignored_at (s : store_t) (p : option ptr) (files : option (list str)) (own : list nat) : Prop :=
  match p, files with
  | None, None => own = []
  | Some p, Some files => exists max, list_at s p files max 0 own /\ max <= length files + 16
  | _, _ => False
  end.

(** [p] points to the configuration [c]; it consists of the blocks [own], its filters of the
    blocks [filters]. *)
Definition config_at (s : store_t) (p : ptr) (c : config_t) (own : list nat) (filters : list (list nat)) : Prop :=
  exists ps ignore sown iown,
    content s p [Adr (first ps None); Adr ignore] /\
    sequences_at s ps (cf_sequences c) None sown filters /\ ignored_at s ignore (cf_ignore c) iown /\
    own = p_block p :: sown ++ iown.

(** No configuration, or one without parts in common. *)
Definition results_at (s : store_t) (p : option ptr) (c : option config_t) (own : list nat) : Prop :=
  match p, c with
  | None, None => own = []
  | Some p, Some c => exists cown filters, config_at s p c cown filters /\ own = cown ++ concat filters /\ NoDup own
  | _, _ => False
  end.

(** A configuration that may have filters in common to several sequences; altogether it
    consists of the blocks [own]. *)
Definition loaded_at (s : store_t) (p : ptr) (c : config_t) (own : list nat) : Prop :=
  exists cown filters, config_at s p c cown filters /\ NoDup own /\ NoDup cown /\ Forall (fun l => NoDup l) filters /\
    (forall b, In b cown -> ~ In b (concat filters)) /\ (forall b, In b own <-> In b (cown ++ concat filters)).

(** ** What happens to memory *)

(** From blocks [own] to blocks [own']: other memory is as it was; [own'] is from [own] and
    new memory; [lost] blocks are still allocated, but belong to neither. *)
Definition evolves (own own' : list nat) (lost : nat) (s s' : store_t) : Prop :=
  (forall b, b < length (s_heap s) -> ~ In b own -> nth_error (s_heap s') b = nth_error (s_heap s) b /\ s_words s' b = s_words s b) /\
  (forall b, In b own' -> In b own \/ length (s_heap s) <= b) /\ length (s_heap s) <= length (s_heap s') /\
  live (s_heap s') + length own = live (s_heap s) + length own' + lost.

(** The blocks of filters; of a sequence's filters and source *)
Definition given_to {A} (x : option A) : nat := match x with Some _ => 1 | None => 0 end.
Definition filter_blocks (fs : list filter_t) : nat := list_sum (map (fun f => 1 + given_to (f_filename f) + given_to (f_builtin f)) fs).
Definition definition_blocks (q : sequence_t) : nat := filter_blocks (s_filters q) + given_to (s_source q).

(** The strings in a list of tokens. *)
Definition is_string (t : ConfigLex.token) : bool := match t with ConfigLex.T_qstring _ | ConfigLex.T_id _ => true | _ => false end.
Definition strings (ts : list ConfigLex.token) : nat := length (filter is_string ts).

(** What the definitions [ds] replace: definitions of [qs], and each other. *)
Definition defines (n : str) (ds : list definition) : bool :=
  existsb (fun d => match d with Sequence m _ => str_eqb m n | Ignore _ => false end) ds.
Definition replaced_by (ds : list definition) (qs : list sequence_t) : nat :=
  list_sum (map definition_blocks (filter (fun q => defines (s_name q) ds) qs)).
Fixpoint replaced_within (ds : list definition) : nat :=
  match ds with
  | [] => 0
  | Sequence n fs :: ds => (if defines n ds then filter_blocks fs + 1 else 0) + replaced_within ds
  | Ignore _ :: ds => replaced_within ds
  end.

(** An empty list of files is replaced by another. *)
Definition empty_list (c : option config_t) : nat :=
  match c with Some c => match cf_ignore c with Some [] => 2 | _ => 0 end | None => 0 end.

(** ** Outcomes *)

(** A function in memory against one on lists: the same text is printed and the same end is
    reached, with [Q] if it is a result.  Or malloc has refused a request with [R], which is
    reported; or strdup has refused one with [R'], which goes unnoticed. *)
Inductive follows {al : allocator} {A B} (R R' : heap -> N -> Prop) (Q : B -> A -> store_t -> Prop) (pure : talk B) : talk (A * store_t) -> Prop :=
| follows_done said b a s : pure = (said, Ok b) -> Q b a s -> follows R R' Q pure (said, Ok (a, s))
| follows_exit said c : pure = (said, Exit c) -> follows R R' Q pure (said, Exit c)
| follows_ub said w : pure = (said, UB w) -> follows R R' Q pure (said, UB w)
| follows_refused said said' h n message : fst pure = said ++ said' -> refusal_of h n = Some message -> R h n ->
    follows R R' Q pure (said ++ [(Stderr, no_memory_left message)], Exit EXIT_FAILURE)
| follows_unnoticed h n message t : refusal_of h n = Some message -> R' h n -> follows R R' Q pure t.

(** ** Reading a file *)

Definition contents_of (f : ConfigParse.file_at) : str := match f with ConfigParse.Contents c => c | _ => [] end.
Definition sequences_of (c : option config_t) : list sequence_t := match c with Some c => cf_sequences c | None => [] end.
Definition ignored_of (c : option config_t) : list str := match c with Some c => match cf_ignore c with Some l => l | None => [] end | None => [] end.

(** Nothing overflows. *)
Definition moderate (path contents : str) (ignored : list str) : Prop :=
  (N.of_nat (length path + length contents) < 2 ^ 32)%N /\ (Z.of_nat (length ignored + length contents + 32) <= int_max)%Z.

(** Memory that suffices. *)
Definition reading_room (path contents : str) (ignored : list str) : nat :=
  168 + length contents * (56 + 3 * (length path + length contents + 1) + 8 * (length ignored + length contents + 32)).

Definition within (s : store_t) (room : nat) (h : heap) (n : N) : Prop := heap_size h + N.to_nat n <= heap_size (s_heap s) + room.

(** A request for a copy of a part of the text. *)
Definition for_text (contents : str) (n : N) : Prop := exists a text b, contents = a ++ text ++ b /\ n = (strlen (cstr text) + 1)%N.

(** The same configuration and line as on lists, in memory. *)
Definition leaves (s : store_t) (own : list nat) (lost room : nat) (b : option config_t * N) (a : option ptr * N * option ptr) (s' : store_t) : Prop :=
  snd b = snd (fst a) /\ exists own', results_at s' (fst (fst a)) (fst b) own' /\ evolves own own' lost s s' /\ heap_size (s_heap s') <= heap_size (s_heap s) + room.
