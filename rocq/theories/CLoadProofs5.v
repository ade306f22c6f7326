(** * Proofs about loading the configuration in memory: whole runs *)

From Verif Require Import Base BaseFacts Stdio StdioFacts Filter Spoof ConfigSpec ConfigLex ConfigParse ConfigProofs ConfigLoad ConfigLoadSpec Prog Warnings Startup StartProofs StartProofs3
  Mem MemSpec MemFacts Words WordsSpec FilesSpec LinkedSpec CConfig CConfigProofs5 CConfigProofs6 CConfigProofs7 CLoad CLoadSpec CLoadProofs3 CLoadProofs4.

Local Open Scope nat_scope.

Section whole.

Context {al : allocator}.

Theorem search_in_memory literal env s : literals_in (s_heap s) literal the_literals -> orderly env ->
  follows (within s (loading_room env)) (fun h n => within s (loading_room env) h n /\ exists path, In path (candidates env) /\ e_files env path <> NoFile /\ for_text (contents_of (e_files env path)) n)
    (fun c p s' => exists lost, loads s lost (loading_room env) c p s')
    (config_file_load_says env None) (c_config_file_load literal env None s).
Proof.
  intros L O. eapply follows_weaken; [exact (search_ok literal s env L O)|auto|auto|]. intros c p s' (lost & H & _). eauto.
Qed.

Theorem named_in_memory literal env q path s : cstr_at (s_heap s) q path -> moderate path (contents_of (e_files env path)) [] ->
  exists lost, 0 < lost /\ follows (within s (length path + 1 + reading_room path (contents_of (e_files env path)) []))
    (fun h n => within s (length path + 1 + reading_room path (contents_of (e_files env path)) []) h n /\ for_text (contents_of (e_files env path)) n)
    (loads s lost (length path + 1 + reading_room path (contents_of (e_files env path)) []))
    (config_file_load_says env (Some path)) (c_config_file_load literal env (Some q) s).
Proof.
  intros C M. exists (1 + file_lost (e_files env path) path None). split; [lia|]. now apply named_ok.
Qed.

Theorem built_in_memory literal env s : literals_in (s_heap s) literal the_literals -> orderly env -> (forall p, In p (candidates env) -> e_files env p = NoFile) ->
  (exists p s', c_config_file_load literal env None s = done (p, s') /\ loads s 0 (256 + 5 * 168 + 2048) spoof_config_file p s') \/
  (exists h n message, refusal_of h n = Some message /\ within s (256 + 5 * 168 + 2048) h n /\
     c_config_file_load literal env None s = ([(Stderr, no_memory_left message)], Exit EXIT_FAILURE)).
Proof.
  intros L O E.
  assert (T : total env = 0).
  { unfold total. assert (X : forall l, (forall p, In p l -> e_files env p = NoFile) -> list_sum (map (fun p => length (contents_of (e_files env p))) l) = 0).
    { induction l as [|a l IH]; intros H; [reflexivity|]. cbn [map list_sum fold_right]. rewrite (H a (or_introl eq_refl)). cbn. apply IH. intros p J. apply H. now right. }
    apply X, E. }
  assert (Lr : loading_room env = 256 + 5 * 168 + 2048) by (unfold loading_room; rewrite T; lia).
  assert (Pure : config_file_load_says env None = done spoof_config_file).
  { assert (P : forall p line, In p (candidates env) -> parse_config_file_says (e_files env) p line None = done (None, line)) by (intros p line J; unfold parse_config_file_says; now rewrite E by exact J).
    assert (S : forall p line, In p (candidates env) -> parse_if_short_says (e_files env) p line None = done (None, line)) by (intros p line J; unfold parse_if_short_says; destruct (_ <? _)%N; [now apply P|reflexivity]).
    assert (Or : forall p line, In p (candidates env) -> or_else_says (e_files env) p line None = done (None, line)) by (intros p line J; unfold or_else_says; now apply P).
    unfold candidates, system_paths, user_paths in S, Or. unfold config_file_load_says.
    assert (O1 := fun line => Or (bs "/etc/detoxrc") line ltac:(rewrite !in_app_iff; cbn [In]; auto 6)).
    assert (O2 := fun line => Or (bs "/usr/local/etc/detoxrc") line ltac:(rewrite !in_app_iff; cbn [In]; auto 6)).
    destruct (e_sysconfdir env) as [d|], (e_getenv env (bs "HOME")) as [e|], (e_getenv env (bs "XDG_CONFIG_HOME")) as [f|];
      repeat first [rewrite tbind_done; cbv beta iota | rewrite O1 | rewrite O2 | rewrite S by (rewrite !in_app_iff; cbn [In]; auto)]; reflexivity. }
  pose proof (search_ok literal s env L O) as F. rewrite Pure, Lr in F. unfold RR in F. rewrite Lr in F.
  destruct F as [said c p s' Eq (lost & H & N)|said n Eq|said w Eq|said said' h n message Eq Rf W|h n message t Rf (W & path & J & Q & _)].
  - left. injection Eq as <- <-. destruct (N E) as (_ & ->). exists p, s'. split; [reflexivity|exact H].
  - discriminate.
  - discriminate.
  - right. exists h, n, message. splits; auto. cbn in Eq. symmetry in Eq. apply app_eq_nil in Eq as (-> & _). reflexivity.
  - destruct (Q (E path J)).
Qed.

(** A file that was asked for, and is accepted. *)
Theorem accepted_in_memory literal env q path contents ts ds printed s : cstr_at (s_heap s) q path -> e_files env path = Contents contents -> moderate path contents [] ->
  scans contents ts printed -> config_text ts ds ->
  exists said c, stdout_of said = printed /\ in_force (map (pair path) ds) c /\
    follows (within s (length path + 1 + reading_room path contents []))
      (fun h n => within s (length path + 1 + reading_room path contents []) h n /\ for_text contents n)
      (fun _ p s' => exists own, loaded_at s' p c own /\ evolves [] own (1 + strings ts + replaced_within ds) s s')
      (said, Ok tt) (c_config_file_load literal env (Some q) s).
Proof.
  intros C E M S T.
  destruct (parse_good (e_files env) path None contents ts printed ds [] E S T eq_refl) as (c & P & IF).
  destruct (parse_config_file_mirrors (e_files env) path 1%N None) as (Os & Rs). rewrite P in Os, Rs. cbn [fst snd] in Os, Rs.
  pose proof (named_ok literal s env q path C) as F. rewrite E in F. specialize (F M). cbn [contents_of] in F.
  unfold config_file_load_says in F. destruct (parse_config_file_says (e_files env) path 1 None) as [said r] eqn:Ey. cbn [fst snd] in *. exists said, c. splits; auto.
  destruct r as [[oc l]| |]; try discriminate. cbn in Rs. injection Rs as ->.
  assert (Lo : file_lost (Contents contents) path None = strings ts + replaced_within ds).
  { unfold file_lost. rewrite (wasted_ok path contents ts ds printed _ S T); [|reflexivity|constructor]. cbn [c_sequences sequences_of empty_list]. unfold replaced_by. cbn. lia. }
  rewrite Lo in F. unfold tbind, done, quietly in F. cbn [fst snd] in F. rewrite app_nil_r in F.
  destruct F as [said' b a s' Eq Q|? ? Eq|? ? Eq|said1 said2 h n message Eq Rf W|h n message t Rf (W & a & text & b & Eq & Q)].
  - injection Eq as <- <-. eapply follows_done; [reflexivity|]. destruct Q as (own & L & Ev & _). exists own. split; [exact L|]. exact Ev.
  - discriminate.
  - discriminate.
  - eapply follows_refused; [exact Eq|exact Rf|exact W].
  - eapply follows_unnoticed; [exact Rf|]. split; [exact W|]. exists a, text, b. auto.
Qed.

(** With enough memory. *)
Lemma follows_enough {A B} (R R' : heap -> N -> Prop) (Q : B -> A -> store_t -> Prop) pure t : (forall h n, R h n -> refusal_of h n = None) -> (forall h n, R' h n -> R h n) -> follows R R' Q pure t ->
  match pure with
  | (said, Ok b) => exists a s', t = (said, Ok (a, s')) /\ Q b a s'
  | (said, Exit n) => t = (said, Exit n)
  | (said, UB w) => t = (said, UB w)
  end.
Proof.
  intros A1 A2 F. destruct F as [said b a s' Eq Qb|said n Eq|said w Eq|said said' h n message Eq Rf W|h n message t Rf W].
  - rewrite Eq. eauto.
  - now rewrite Eq.
  - now rewrite Eq.
  - rewrite A1 in Rf by exact W. discriminate.
  - rewrite A1 in Rf by (now apply A2). discriminate.
Qed.

Theorem search_enough literal env s : literals_in (s_heap s) literal the_literals -> orderly env -> (forall h n, within s (loading_room env) h n -> refusal_of h n = None) ->
  match config_file_load_says env None with
  | (said, Ok c) => exists p s' lost, c_config_file_load literal env None s = (said, Ok (p, s')) /\ loads s lost (loading_room env) c p s'
  | (said, Exit n) => c_config_file_load literal env None s = (said, Exit n)
  | (said, UB w) => c_config_file_load literal env None s = (said, UB w)
  end.
Proof.
  intros L O A. pose proof (follows_enough _ _ _ _ _ A (fun h n => @proj1 _ _) (search_in_memory literal env s L O)) as X.
  destruct (config_file_load_says env None) as [said [c| |]]; auto. destruct X as (p & s' & E & lost & H). eauto.
Qed.

Theorem named_enough literal env q path s : cstr_at (s_heap s) q path -> moderate path (contents_of (e_files env path)) [] ->
  (forall h n, within s (length path + 1 + reading_room path (contents_of (e_files env path)) []) h n -> refusal_of h n = None) ->
  match config_file_load_says env (Some path) with
  | (said, Ok c) => exists p s' lost, c_config_file_load literal env (Some q) s = (said, Ok (p, s')) /\ 0 < lost /\
      loads s lost (length path + 1 + reading_room path (contents_of (e_files env path)) []) c p s'
  | (said, Exit n) => c_config_file_load literal env (Some q) s = (said, Exit n)
  | (said, UB w) => c_config_file_load literal env (Some q) s = (said, UB w)
  end.
Proof.
  intros C M A. destruct (named_in_memory literal env q path s C M) as (lost & Pl & F). pose proof (follows_enough _ _ _ _ _ A (fun h n => @proj1 _ _) F) as X.
  destruct (config_file_load_says env (Some path)) as [said [c| |]]; auto. destruct X as (p & s' & E & H). exists p, s', lost. auto.
Qed.

End whole.
