(** * Proofs about the configuration in memory: whole files *)

From Verif Require Import Base BaseFacts Stdio StdioFacts Filter Spoof ConfigSpec ConfigLex ConfigLexProofs ConfigParse ConfigProofs Prog Warnings Startup StartProofs StartProofs3
  Mem MemSpec MemFacts Words WordsSpec WordsFacts CFilelist FilesSpec CConfig LinkedSpec CConfigProofs3 CConfigProofs5 CConfigProofs6 CConfigProofs7.

Local Open Scope nat_scope.

Section whole.

Context {al : allocator}.

Theorem parse_in_memory (files : str -> file_at) filename path line name pp pc s own : cstr_at (s_heap s) filename path -> results_at s pp pc own -> ~ In (p_block filename) own ->
  moderate path (contents_of (files path)) (ignored_of pc) ->
  exists lost, follows (within s (reading_room path (contents_of (files path)) (ignored_of pc)))
    (fun h n => within s (reading_room path (contents_of (files path)) (ignored_of pc)) h n /\ for_text (contents_of (files path)) n)
    (leaves s own lost (reading_room path (contents_of (files path)) (ignored_of pc)))
    (parse_config_file_says files path line pc) (c_parse_config_file files filename line name pp s).
Proof.
  intros C R N (M1 & M2). exists (file_lost (files path) path pc).
  assert (Ef : file_length (files path) = length (contents_of (files path))) by now destruct (files path).
  assert (En : file_need (files path) (length path + length (contents_of (files path))) (length (ignored_of pc) + length (contents_of (files path))) =
               reading_room path (contents_of (files path)) (ignored_of pc)).
  { unfold file_need, reading_room, round_need. destruct (files path) as [| |c]; cbn [contents_of length]; lia. }
  pose proof (parse_file_ok files (length path + length (contents_of (files path))) (length (ignored_of pc) + length (contents_of (files path))) filename path line name pp pc s own
    C R N ltac:(lia) ltac:(lia) M1 ltac:(lia) M2) as F. rewrite En in F.
  eapply follows_weaken; [exact F| | |]; auto.
  intros h n (L & a & text & b & E & Q). split; [exact L|]. exists a, text, b. split; [|exact Q]. now rewrite E.
Qed.

(** A file that is accepted. *)
Theorem accepted_in_memory (files : str -> file_at) filename path line name pp pc s own contents ts ds printed before : cstr_at (s_heap s) filename path -> results_at s pp pc own -> ~ In (p_block filename) own ->
  files path = Contents contents -> moderate path contents (ignored_of pc) -> scans contents ts printed -> config_text ts ds -> known before pc ->
  exists said c, stdout_of said = printed /\ in_force (before ++ map (pair path) ds) c /\
    follows (within s (reading_room path contents (ignored_of pc)))
      (fun h n => within s (reading_room path contents (ignored_of pc)) h n /\ for_text contents n)
      (fun _ a s' => exists p own', fst (fst a) = Some p /\ results_at s' (Some p) (Some c) own' /\
         evolves own own' (empty_list pc + strings ts + replaced_by ds (sequences_of pc) + replaced_within ds) s s')
      (said, Ok tt) (c_parse_config_file files filename line name pp s).
Proof.
  intros C R N E M S T K.
  destruct (parse_good files path pc contents ts printed ds before E S T K) as (c & P & IF).
  destruct (parse_config_file_mirrors files path line pc) as (O & Rs). rewrite P in O, Rs. cbn [fst snd] in O, Rs.
  destruct (parse_config_file_says files path line pc) as [said r] eqn:Ey. cbn [fst snd] in *. exists said, c. splits; auto.
  destruct r as [[oc l]| |]; try discriminate. cbn in Rs. injection Rs as ->.
  assert (En : file_need (files path) (length path + length contents) (length (ignored_of pc) + length contents) = reading_room path contents (ignored_of pc)).
  { rewrite E. reflexivity. }
  pose proof (parse_file_ok files (length path + length contents) (length (ignored_of pc) + length contents) filename path line name pp pc s own
    C R N ltac:(lia) ltac:(rewrite E; cbn; lia) (proj1 M) ltac:(rewrite E; cbn; lia) (proj2 M)) as F. rewrite En, Ey in F.
  assert (ND : NoDup (map s_name (sequences_of pc))).
  { destruct pc as [c0|]; [|constructor]. destruct K as (K & _). cbn [sequences_of]. rewrite K. apply NoDup_rev, NoDup_nodup. }
  assert (Lo : file_lost (files path) path pc = empty_list pc + strings ts + replaced_by ds (sequences_of pc) + replaced_within ds).
  { rewrite E. unfold file_lost. rewrite (wasted_ok path contents ts ds printed _ S T); [cbn [c_sequences]; lia|reflexivity|exact ND]. }
  rewrite Lo, E in F. destruct F as [said' b a s' Eq Q|? ? Eq|? ? Eq|said1 said2 h n message Eq Rf W|h n message t Rf (W & a & text & b & Eq & Q)].
  - injection Eq as <- <-. eapply follows_done; [reflexivity|]. destruct Q as (_ & own' & RA & EV & _). cbn [fst] in RA. destruct (fst (fst a)) as [p|]; [|contradiction]. eauto.
  - discriminate.
  - discriminate.
  - eapply follows_refused; [exact Eq|exact Rf|exact W].
  - eapply follows_unnoticed; [exact Rf|]. split; [exact W|]. exists a, text, b. split; [|exact Q]. congruence.
Qed.

(** With enough memory. *)
Theorem enough_in_memory (files : str -> file_at) filename path line name pp pc s own : cstr_at (s_heap s) filename path -> results_at s pp pc own -> ~ In (p_block filename) own ->
  moderate path (contents_of (files path)) (ignored_of pc) ->
  (forall h n, within s (reading_room path (contents_of (files path)) (ignored_of pc)) h n -> refusal_of h n = None) ->
  match parse_config_file_says files path line pc with
  | (said, Ok b) => exists lost a s', c_parse_config_file files filename line name pp s = (said, Ok (a, s')) /\
      leaves s own lost (reading_room path (contents_of (files path)) (ignored_of pc)) b a s'
  | (said, Exit n) => c_parse_config_file files filename line name pp s = (said, Exit n)
  | (said, UB w) => c_parse_config_file files filename line name pp s = (said, UB w)
  end.
Proof.
  intros C R N M A. destruct (parse_in_memory files filename path line name pp pc s own C R N M) as (lost & F).
  destruct F as [said b a s' Eq Q|said n Eq|said w Eq|said said' h n message Eq Rf W|h n message t Rf (W & _)].
  - rewrite Eq. eauto.
  - now rewrite Eq.
  - now rewrite Eq.
  - rewrite A in Rf by exact W. discriminate.
  - rewrite A in Rf by exact W. discriminate.
Qed.

(** No memory for a quoted string. *)
Theorem starved fuel q v line input text rest s message : munch input text rest R_qstring ->
  refusal_of (s_heap s) (size_t (strlen (cstr (tl text)) + 1)) = Some message ->
  c_yyparse (S fuel) q v line input s = quietly (UB NullDeref).
Proof.
  intros M Rf. assert (input <> []) by (destruct M as (-> & NE & _); now destruct text). destruct input as [|c input]; [easy|]. cbn [c_yyparse].
  assert (L : c_lex_round (c :: input) s = quietly (UB NullDeref)).
  { unfold c_lex_round. rewrite (munch_best _ _ _ _ M). destruct M as (-> & _). rewrite app_firstn. cbn [c_lex_action]. unfold c_lex_qstring.
    assert (Rw : bytes (c_raw_strdup_of (cstr (tl text))) s = done (None, s)).
    { destruct s as [h w]. unfold bytes, c_raw_strdup_of. cbn [s_heap] in *. now rewrite Rf. }
    rewrite wbind_assoc, (wbind_done _ _ _ _ _ Rw). reflexivity. }
  unfold Words.wbind at 1. now rewrite L.
Qed.

End whole.
