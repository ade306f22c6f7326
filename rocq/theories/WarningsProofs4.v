(** * The filters' complaints as part of the program's output *)

From Verif Require Import Base BaseFacts Stdio Table CleanString CleanUtf8 CleanSpec Utf8Spec CleanStringProofs CleanUtf8Proofs
  Filter SequenceSpec SequenceProofs ParseTableSpec EscapeSpec Prog ProgFacts Warnings WarningsProofs WarningsSpec WarningsProofs2
  WarningsProofs3 File FS FileSpec FileProofs FileProofs2 Inline InlineSpec InlineProofs RunSpec RunProofs InlineRunSpec InlineRunProofs.

Lemma clean_messages pf seq s r : sequence_run_filters pf (Some seq) (Some s) = Ok r ->
  exists l, sequence_remarks pf (s_filters seq) s l /\ (forall l', sequence_remarks pf (s_filters seq) s l' -> l' = l) /\
    fst (sequence_run_says pf (Some seq) (Some s)) = map as_line l.
Proof.
  intros E. destruct (sequence_says pf seq s r E) as (l & R & X). exists l. splits; auto.
  intros l' R'. exact (sequence_remarks_fun _ _ _ _ _ R R').
Qed.

Lemma clean_last_words pf seq s c : sequence_run_filters pf (Some seq) (Some s) = Exit c ->
  c = EXIT_FAILURE /\ exists pre f post m l text, s_filters seq = pre ++ f :: post /\ run_filters pf pre (Some s) = Ok (Some m) /\
    sequence_remarks pf pre s l /\ last_words f text /\
    fst (sequence_run_says pf (Some seq) (Some s)) = map as_line (l ++ [text]).
Proof. exact (filters_last_words pf (s_filters seq) s c). Qed.

Lemma file_handled_cleans o p tr q dir base : last_component p dir base -> base <> bs "." -> base <> bs ".." ->
  trace_of (parse_file p o) tr (Ret q) ->
  exists r, sequence_run_filters (o_platform o) (o_sequence_to_use o) (Some base) = Ok r.
Proof.
  intros L N1 N2 T. unfold parse_file in T. rewrite (split_path_of p dir base L) in T.
  replace (is_protected base) with false in T.
  2:{ symmetry. destruct (is_protected base) eqn:D; auto. apply protected_iff in D. tauto. }
  apply done_bind in T. destruct T as (t1 & t2 & cl & _ & T & _). apply done_talking in T. destruct T as [_ E].
  rewrite sequence_result in E. eauto.
Qed.

Lemma file_messages o seq p dir base tr q : o_sequence_to_use o = Some seq ->
  last_component p dir base -> base <> bs "." -> base <> bs ".." ->
  trace_of (parse_file p o) tr (Ret q) ->
  exists l tr2, sequence_remarks (o_platform o) (s_filters seq) base l /\
    tr = map (fun text => Ev (Print Stderr (text ++ [newline])) tt) l ++ tr2 /\ file_handled o p tr2 q.
Proof.
  intros Hs L N1 N2 T. destruct (file_handled_cleans o p tr q dir base L N1 N2 T) as (r & E). rewrite Hs in E.
  destruct (clean_messages _ _ _ _ E) as (l & R & _ & X). apply file_forward in T. destruct T as [ws tr q C F].
  exists l, tr. splits; auto. f_equal. destruct C as [d b L' D|d b L' _ _]; destruct (last_component_fun _ _ _ _ _ L L') as [<- <-]; [tauto|].
  unfold remarks. now rewrite Hs, X, map_map.
Qed.

Lemma line_messages o seq f t r : o_sequence_to_use o = Some seq ->
  line_text t -> (length t <= 1006)%nat -> t <> bs "." -> t <> bs ".." ->
  sequence_run_filters (o_platform o) (Some seq) (Some t) = Ok (Some r) ->
  exists l, sequence_remarks (o_platform o) (s_filters seq) t l /\
    forall tr, trace_of (parse_inline f o) (Ev (ReadStream f) (inl (ended t)) :: tr) (Ret tt) <->
      tr = map (fun text => Ev (Print Stderr (text ++ [newline])) tt) l ++
           [Ev (Print Stdout r) tt; Ev (Print Stdout [newline]) tt].
Proof.
  intros Hs [Nu Nn] Lt N1 N2 E. destruct (clean_messages _ _ _ _ E) as (l & R & _ & X). exists l. split; auto.
  assert (HS : o_sequence_to_use o <> None) by congruence.
  assert (SR : stream_read o (ended t) (map (fun text => Ev (Print Stderr (text ++ [newline])) tt) l ++
           [Ev (Print Stdout r) tt; Ev (Print Stdout [newline]) tt]) None).
  { apply (sr_piece o (ended t) t true false [] (map (fun text => Ev (Print Stderr (text ++ [newline])) tt) l) r [] None).
    - apply po_line; auto. unfold next_read, ended. splits.
      + now rewrite app_nil_r.
      + now destruct t.
      + rewrite app_length. simpl. lia.
      + left. exists t. auto.
    - pose proof (remarked_text o t N1 N2) as Rm. unfold remarks in Rm. rewrite Hs, X, map_map in Rm. exact Rm.
    - right. rewrite Hs. auto.
    - constructor. }
  intros tr. change (Ret tt) with (ending None). rewrite inline_iff by auto. split.
  - intros H. remember (Ev (ReadStream f) (inl (ended t)) :: tr) as z eqn:Ez. remember None as e eqn:Ee in H.
    set (contents_of := fun l => match l with Ev (ReadStream _) (inl c) :: _ => Some c | _ => None end).
    destruct H as [f' contents tr' e H|f' m|m]; pose proof (f_equal contents_of Ez) as E1; pose proof (f_equal (@tl event) Ez) as E2;
      cbn [contents_of tl] in E1, E2; try discriminate.
    injection E1 as ->. subst. exact (proj1 (stream_unique _ _ _ _ _ _ HS H SR)).
  - intros ->. now constructor.
Qed.

(** ** Silence *)

Lemma shipped_silent pf name seq s r :
  In name [bs "default"; bs "lower"; bs "iso8859_1"; bs "iso8859_1-legacy"; bs "uncgi"; bs "uncgi-only"] -> shipped name seq ->
  sequence_run_filters pf (Some seq) (Some s) = Ok r -> fst (sequence_run_says pf (Some seq) (Some s)) = [].
Proof.
  intros Hn Sh E. destruct (clean_messages _ _ _ _ E) as (l & R & _ & ->). now rewrite (shipped_quiet _ _ _ _ _ Hn Sh R).
Qed.

Lemma utf_8_silent pf seq s r : shipped (bs "utf_8") seq -> sequence_run_filters pf (Some seq) (Some s) = Ok r ->
  nonul s -> valid_utf8 s -> fst (sequence_run_says pf (Some seq) (Some s)) = [].
Proof.
  intros Sh E N V. destruct (clean_messages _ _ _ _ E) as (l & R & _ & ->). rewrite (shipped_utf_8 _ Sh) in R.
  enough (l = []) as -> by reflexivity. revert R. apply remarks_cons_quiet; [|intros m l'; apply quiet_tail].
  intros l' R. unfold filter_remarks in R. cbn [f_cleaner table_filter f_table] in R. exact (valid_quiet _ s l' V N R).
Qed.

Lemma utf_8_afterwards pf seq s m r : shipped (bs "utf_8") seq -> nonul s -> (strlen s < 2 ^ 46)%N ->
  sequence_run_filters pf (Some seq) (Some s) = Ok (Some m) -> sequence_run_filters pf (Some seq) (Some m) = Ok r ->
  fst (sequence_run_says pf (Some seq) (Some m)) = [].
Proof.
  intros Sh N L E E2. destruct (clean_messages _ _ _ _ E2) as (l & R & _ & ->).
  rewrite (cleaned_quiet pf seq s m l); auto. unfold small. eapply N.lt_trans; [exact L|]. reflexivity.
Qed.
