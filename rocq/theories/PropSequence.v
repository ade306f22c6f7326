(** * Properties of filter sequences (C17-C19, C39, C40) *)

From Verif Require Import Base BaseFacts Table BuiltinTables CleanString CleanUtf8 CleanSpec Utf8Spec
  Filter Spoof SequenceSpec SequenceProofs.

(** C17: running a sequence is applying its filters one after the other. *)
Theorem C17_sequence_is_composition :
  forall pf seq s o,
    sequence_run_filters pf (Some seq) (Some s) = Ok (Some o) <-> applied pf (s_filters seq) s o.
Proof. intros. rewrite sequence_run. apply applied_iff. Qed.
Print Assumptions C17_sequence_is_composition.

(** C17: a sequence made of two filter lists runs the first and then the second, also
    when one of them fails. *)
Theorem C17_concatenation :
  forall pf name src fs1 fs2 s,
    sequence_run_filters pf (Some (mkSequence name (fs1 ++ fs2) src)) (Some s)
    = do m <- sequence_run_filters pf (Some (mkSequence name fs1 src)) (Some s);
      sequence_run_filters pf (Some (mkSequence name fs2 src)) m.
Proof.
  intros. rewrite !sequence_run. simpl s_filters. rewrite run_filters_app.
  destruct (run_filters pf fs1 (Some s)) as [m| |] eqn:E; [|reflexivity|reflexivity].
  simpl. destruct m; [reflexivity|]. apply run_filters_none.
Qed.
Print Assumptions C17_concatenation.

(** C17: a name never comes back as "no result". *)
Theorem C17_never_no_result :
  forall pf seq s, sequence_run_filters pf (Some seq) (Some s) <> Ok None.
Proof. intros pf seq s E. rewrite sequence_run in E. apply run_filters_some in E. now destruct E. Qed.
Print Assumptions C17_never_no_result.

(** C17: and a filter does what its kind, its options and its table say. *)
Theorem C17_what_a_filter_does :
  forall pf f s o, nonul s -> in_memory s -> (forall t, f_table f = Some t -> fits t s) ->
    filter_run pf f (Some s) = Ok (Some o) -> cleaned pf f s o.
Proof. exact filter_cleaned. Qed.
Print Assumptions C17_what_a_filter_does.

Example C17_options_matter :
  let run f := filter_run (mkPlatform true c_locale) f (Some (bs "a-_b._c__.txt")) in
  run (filter_init F_wipeup) = Ok (Some (bs "a-b._c_.txt")) /\
  run (mkFilter F_wipeup None None true 0 None) = Ok (Some (bs "a-b.c.txt")) /\
  run (mkFilter F_max_length None None true 11 None) = Ok (Some (bs "a-._c__.txt")) /\
  run (filter_init F_max_length) = Ok (Some (bs "a-_b._c__.txt")).
Proof. vm_compute. auto. Qed.

Example C17_order_matters :
  let run fs := sequence_run_filters (mkPlatform true c_locale) (Some (mkSequence (bs "x") fs None)) (Some (bs "A%2dB")) in
  run [filter_init F_uncgi; filter_init F_lower] = Ok (Some (bs "a-b")) /\
  run [filter_init F_lower; mkFilter F_max_length None None false 2 None; filter_init F_uncgi]
  = Ok (Some (bs "a%")).
Proof. vm_compute. auto. Qed.

(** C18: the results of the main shipped sequences are portable names. *)
Theorem C18_portable :
  forall pf name seq s o,
    In name [bs "default"; bs "iso8859_1"; bs "iso8859_1-legacy"; bs "utf_8"; bs "uncgi"; bs "lower"] ->
    (name = bs "lower" -> p_ctype pf = c_locale) ->
    shipped name seq -> nonul s -> (strlen s < 2 ^ 50)%N ->
    sequence_run_filters pf (Some seq) (Some s) = Ok (Some o) -> portable o.
Proof. exact shipped_portable. Qed.
Print Assumptions C18_portable.

(** C18: and there is always a result, for utf_8 when no over-long NUL is in the name. *)
Theorem C18_total :
  forall pf name seq s,
    In name [bs "default"; bs "iso8859_1"; bs "iso8859_1-legacy"; bs "utf_8"; bs "uncgi"; bs "lower"] ->
    (name = bs "lower" -> p_ctype pf = c_locale) ->
    shipped name seq -> nonul s -> (strlen s < 2 ^ 50)%N ->
    (name = bs "utf_8" -> forall u, infix u s -> ~ overlong_nul u) ->
    exists o, sequence_run_filters pf (Some seq) (Some s) = Ok (Some o).
Proof. exact shipped_total. Qed.
Print Assumptions C18_total.

(** C18: cleaning a cleaned name changes nothing. *)
Theorem C18_idempotent :
  forall pf name seq s o,
    In name [bs "default"; bs "lower"; bs "utf_8"] ->
    (name = bs "lower" -> p_ctype pf = c_locale) ->
    shipped name seq -> nonul s -> (strlen s < 2 ^ 46)%N ->
    sequence_run_filters pf (Some seq) (Some s) = Ok (Some o) ->
    sequence_run_filters pf (Some seq) (Some o) = Ok (Some o).
Proof. exact shipped_idempotent. Qed.
Print Assumptions C18_idempotent.

Definition demo_pf : platform := mkPlatform true c_locale.

(** Run a shipped sequence, on a system with no table files. *)
Definition run_shipped (name : string) (s : str) : res (option str) :=
  match sequence_choose_default (cf_sequences spoof_config_file) (Some (bs name)) with
  | Some s0 => do seq <- sequence_review None (fun _ => None) s0;
               sequence_run_filters demo_pf (Some seq) (Some s)
  | None => Exit 1
  end.

(** iso8859_1 re-encodes its own output, and uncgi decodes its own output again. *)
Theorem C18_iso8859_1_and_uncgi_idempotent_refuted :
  exists s1 o1 p1 s2 o2 p2,
    run_shipped "iso8859_1" s1 = Ok (Some o1) /\ run_shipped "iso8859_1" o1 = Ok (Some p1) /\ p1 <> o1 /\
    run_shipped "uncgi" s2 = Ok (Some o2) /\ run_shipped "uncgi" o2 = Ok (Some p2) /\ p2 <> o2.
Proof.
  exists [xe9], [xc3; xa9], [xc3; x83; xc2; xa9]%byte, (bs "%2541"), (bs "%41"), (bs "A").
  vm_compute. splits; try reflexivity; discriminate.
Qed.
Print Assumptions C18_iso8859_1_and_uncgi_idempotent_refuted.

Example C18_default_sequence :
  run_shipped "default" (bs "--- My Summer & Winter?? (2003).txt") = Ok (Some (bs "My_Summer_and_Winter-2003.txt")) /\
  run_shipped "utf_8" ([xc3; xa9]%byte ++ bs " / " ++ [xff; xc2; xa0]%byte ++ bs "__#.x")
  = Ok (Some ([xc3; xa9]%byte ++ bs "_#.x")) /\
  run_shipped "lower" (bs "READ ME.TXT") = Ok (Some (bs "read_me.txt")).
Proof. vm_compute. auto. Qed.

(** C19: these filters introduce no '/'. *)
Theorem C19_no_slash_introduced :
  forall pf fs s o,
    Forall adds_no_slash fs -> p_ctype pf = c_locale -> applied pf fs s o ->
    ~ In slash s -> ~ In slash o.
Proof. exact filters_no_slash. Qed.
Print Assumptions C19_no_slash_introduced.

(** C19: after the built-in safe filter there is no '/', whatever ran before it. *)
Theorem C19_safe_removes_slashes :
  forall pf fs1 f fs2 s o,
    f_cleaner f = F_safe -> f_table f = Some load_builtin_safe_table ->
    Forall adds_no_slash fs2 -> p_ctype pf = c_locale ->
    applied pf (fs1 ++ f :: fs2) s o -> ~ In slash o.
Proof. exact safe_last_no_slash. Qed.
Print Assumptions C19_safe_removes_slashes.

(** C19: the -only sequences with uncgi and utf_8 turn a slash-free name into one with
    a slash. *)
Theorem C19_only_sequences_refuted :
  exists s1 o1 s2 o2,
    ~ In slash s1 /\ run_shipped "uncgi-only" s1 = Ok (Some o1) /\ In slash o1 /\
    ~ In slash s2 /\ run_shipped "utf_8-only" s2 = Ok (Some o2) /\ In slash o2.
Proof.
  exists (bs "a%2Fb"), (bs "a/b"), (bs "a" ++ [xc0; xaf]%byte ++ bs "b"), (bs "a/b").
  vm_compute. splits; try reflexivity; try (intuition discriminate); auto.
Qed.
Print Assumptions C19_only_sequences_refuted.

Example C19_safe_catches_decoded_slash :
  run_shipped "uncgi" (bs "..%2F..%2Fetc") = Ok (Some (bs ".etc")).
Proof. vm_compute. reflexivity. Qed.

(** C39: a name selects the first sequence with exactly that name, and nothing else. *)
Theorem C39_choice_by_name :
  forall seqs name s,
    sequence_choose_default seqs (Some name) = Some s <->
    exists before after, seqs = before ++ s :: after /\ s_name s = name /\
      Forall (fun x => s_name x <> name) before.
Proof. exact choose_by_name. Qed.
Print Assumptions C39_choice_by_name.

Theorem C39_unknown_name :
  forall seqs name,
    sequence_choose_default seqs (Some name) = None <-> Forall (fun x => s_name x <> name) seqs.
Proof. exact choose_none. Qed.
Print Assumptions C39_unknown_name.

(** C39: without a name, the one called default, or else the first one. *)
Theorem C39_choice_without_name :
  forall seqs,
    sequence_choose_default seqs None =
    match sequence_choose_default seqs (Some (bs "default")) with
    | Some s => Some s
    | None => hd_error seqs
    end.
Proof. exact choose_default. Qed.
Print Assumptions C39_choice_without_name.

Example C39_choice :
  let a := mkSequence (bs "a") [] None in
  let d := mkSequence (bs "default") [] None in
  map (option_map s_name) [sequence_choose_default [a; d] None; sequence_choose_default [a] None;
    sequence_choose_default [a; d] (Some (bs "A")); sequence_choose_default [] None]
  = [Some (bs "default"); Some (bs "a"); None; None].
Proof. vm_compute. reflexivity. Qed.

(** C40: filters with no table need nothing. *)
Theorem C40_no_table_needed :
  forall datadir parse f,
    In (f_cleaner f) [F_lower; F_max_length; F_uncgi; F_wipeup] ->
    filter_load_table datadir parse f = Ok None.
Proof.
  intros datadir parse f I. unfold filter_load_table. simpl in I.
  destruct I as [<-|[<-|[<-|[<-|[]]]]]; reflexivity.
Qed.
Print Assumptions C40_no_table_needed.

(** C40: a built-in name wins over a file name, and an unknown one ends the program. *)
Theorem C40_builtin_wins :
  forall datadir parse f b,
    In (f_cleaner f) [F_iso8859_1; F_safe; F_utf_8] -> f_builtin f = Some b ->
    filter_load_table datadir parse f =
    match filter (fun nt => str_eqb b (fst nt))
            [(bs "iso8859_1", load_builtin_iso8859_1_table); (bs "unicode", load_builtin_unicode_table);
             (bs "safe", load_builtin_safe_table); (bs "cp1252", load_builtin_cp1252_table)] with
    | [(_, t)] => Ok (Some t)
    | _ => Exit 1
    end.
Proof. exact load_builtin_wins. Qed.
Print Assumptions C40_builtin_wins.

(** C40: an explicit file is the only one tried. *)
Theorem C40_explicit_file :
  forall datadir parse f file,
    In (f_cleaner f) [F_iso8859_1; F_safe; F_utf_8] -> f_builtin f = None -> f_filename f = Some file ->
    filter_load_table datadir parse f =
    match parse file with Some t => Ok (Some t) | None => Exit 1 end.
Proof. exact load_explicit_file. Qed.
Print Assumptions C40_explicit_file.

(** C40: otherwise the first usable file in the data directories, and failing that the
    built-in of the filter's kind.  A path of 256 or more bytes is not tried. *)
Theorem C40_search :
  forall datadir parse f file builtin,
    In (f_cleaner f, file, builtin)
      [(F_iso8859_1, bs "iso8859_1.tbl", load_builtin_iso8859_1_table);
       (F_safe, bs "safe.tbl", load_builtin_safe_table);
       (F_utf_8, bs "unicode.tbl", load_builtin_unicode_table)] ->
    f_builtin f = None -> f_filename f = None ->
    let candidates :=
      filter (fun p => (strlen p <? 256)%N)
        (map (fun d => d ++ file)
          (match datadir with Some d => [d ++ bs "/detox/"] | None => [] end
           ++ [bs "/usr/share/detox/"; bs "/usr/local/share/detox/"])) in
    (exists before p after t, candidates = before ++ p :: after /\ Forall (fun q => parse q = None) before /\
       parse p = Some t /\ filter_load_table datadir parse f = Ok (Some t)) \/
    (Forall (fun q => parse q = None) candidates /\ filter_load_table datadir parse f = Ok (Some builtin)).
Proof. exact load_search. Qed.
Print Assumptions C40_search.

(** C40: every filter of a sequence gets its table and keeps its kind, names and options. *)
Theorem C40_tables_of_a_sequence :
  forall datadir parse s s', sequence_review datadir parse s = Ok s' <->
    s_name s' = s_name s /\ s_source s' = s_source s /\ Forall2 (loaded datadir parse) (s_filters s) (s_filters s').
Proof. exact sequence_review_each. Qed.
Print Assumptions C40_tables_of_a_sequence.

(** C40: loading succeeds, or some filter has no table and the program exits with failure. *)
Theorem C40_missing_table_exits :
  forall datadir parse s,
    (exists s', sequence_review datadir parse s = Ok s') \/
    ((exists f, In f (s_filters s) /\ filter_load_table datadir parse f = Exit 1) /\
     sequence_review datadir parse s = Exit 1).
Proof. exact sequence_review_fails. Qed.
Print Assumptions C40_missing_table_exits.

Example C40_sequence_example :
  let t := fst (table_put (table_init 1) 63 (bs "huh")) in
  let parse p := if str_eqb p (bs "my.tbl") then Some t else None in
  sequence_review None parse (mkSequence (bs "x") [mkFilter F_utf_8 (Some (bs "my.tbl")) None true 7 None; filter_init F_lower] None)
  = Ok (mkSequence (bs "x") [mkFilter F_utf_8 (Some (bs "my.tbl")) None true 7 (Some t); filter_init F_lower] None) /\
  sequence_review None parse (mkSequence (bs "x") [filter_init F_lower; mkFilter F_safe (Some (bs "your.tbl")) None false 0 None] None) = Exit 1.
Proof. vm_compute. auto. Qed.

Example C40_second_directory :
  let t := fst (table_put (table_init 1) 63 (bs "huh")) in
  let parse p := if str_eqb p (bs "/usr/share/detox/safe.tbl") then Some t else None in
  filter_load_table (Some (bs "/opt/share")) parse (filter_init F_safe) = Ok (Some t).
Proof. vm_compute. reflexivity. Qed.
