(** * Proofs about the configuration in memory: the parser *)

From Coq Require Import Permutation.
From Verif Require Import Base BaseFacts Stdio StdioFacts Filter Spoof ConfigSpec ConfigLex ConfigLexProofs ConfigParse Prog Warnings Startup StartProofs3
  Mem MemSpec MemFacts CFiltersProofs CFileProofs Words WordsSpec WordsFacts CTableProofs CTableProofs2 CFilelist FilesSpec CFilelistProofs CConfig LinkedSpec CConfigProofs CConfigProofs2 CConfigProofs3 CConfigProofs4.

Local Open Scope nat_scope.

(** ** Positions *)

Definition at_position (s : store_t) (own : list nat) (m : nat) (p : pstate) (q : position) : Prop :=
  match p, q with
  | P_top, Q_top | P_sequence, Q_sequence | P_length, Q_length | P_method_end, Q_method_end | P_sequence_end, Q_sequence_end
  | P_ignore, Q_ignore | P_ignore_file, Q_ignore_file | P_ignore_end, Q_ignore_end => True
  | P_named n, Q_named x | P_ignored n, Q_ignored x => word_in s own m x (Some n)
  | P_methods b, Q_methods b' | P_ignores b, Q_ignores b' => b = b'
  | P_simple c, Q_simple c' | P_method c, Q_method c' | P_options c, Q_options c' => c = c'
  | P_table c b, Q_table c' b' => c = c' /\ b = b'
  | P_option f, Q_option a | P_option_eol f, Q_option_eol a => arguments_for s own m a f
  | _, _ => False
  end.

(** Within a sequence there is a name, outside there are no filters. *)
Definition inside (p : pstate) : bool :=
  match p with
  | P_methods _ | P_simple _ | P_method _ | P_options _ | P_table _ _ | P_length | P_option _ | P_option_eol _ | P_method_end | P_sequence_end => true
  | _ => false
  end.

Definition named_at (s : store_t) (own : list nat) (m : nat) (p : pstate) (v : statics) (c : cf_state) : Prop :=
  if inside p then exists name nm, v_name v = Some name /\ c_name c = Some nm /\ word_in s own m (Some name) (Some nm)
  else c_filters c = [].

Lemma arguments_evolve own own' k s s' m a f : evolves own own' k s s' -> arguments_for s own m a f -> arguments_for s' own' m a f.
Proof. intros E (b & x & rt & B & X & R & ->). exists b, x, rt. splits; eauto using word_evolves. Qed.

Lemma position_evolves own own' k s s' m p q : evolves own own' k s s' -> at_position s own m p q -> at_position s' own' m p q.
Proof. intros E. destruct p, q; cbn [at_position]; eauto using word_evolves, arguments_evolve. Qed.

Lemma named_evolves own own' k s s' m p v c : evolves own own' k s s' -> named_at s own m p v c -> named_at s' own' m p v c.
Proof. intros E. unfold named_at. destruct (inside p); auto. intros (n & x & V & C & W). exists n, x. splits; eauto using word_evolves. Qed.

(** What is lost at a token. *)
Definition wasted_step (p : pstate) (c : cf_state) (t : token) : nat :=
  match p, t with
  | P_sequence_end, T_eol => match c_name c with Some nm => replaces nm (c_sequences c) | None => 0 end
  | _, _ => 0
  end.

Lemma method_same k : match method_state k, q_method k with
  | None, None => True
  | Some p, Some q => forall s own m v c, at_position s own m p q /\ inside p = true /\ (named_at s own m p v c <-> named_at s own m (P_methods false) v c)
  | _, _ => False
  end.
Proof. destruct k; cbn; auto; intros; splits; auto; reflexivity. Qed.

Section parser.

Context {al : allocator}.

(** What a round may ask for. *)
Definition round_need (m i : nat) : nat := 56 + 3 * (m + 1) + 8 * (i + 32).

Definition moved (s : store_t) (own : list nat) (m i : nat) (v : statics) (p' : pstate) (c' : cf_state) (k : nat) (a : position * statics) (s' : store_t) : Prop :=
  exists own', under_way s' (snd a) c' own' /\ evolves own own' k s s' /\ at_position s' own' m p' (fst a) /\ named_at s' own' m p' (snd a) c' /\
    v_source (snd a) = v_source v /\ heap_size (s_heap s') + (m + 1) <= heap_size (s_heap s) + round_need m i.

Theorem step_ok s own m i p q v c t x source src : under_way s v c own -> at_position s own m p q -> named_at s own m p v c -> lexeme_at s own m t x ->
  v_source v = Some source -> word_in s own m (Some source) (Some src) -> (N.of_nat m < 2 ^ 32)%N ->
  length (c_ignore c) <= i -> (Z.of_nat (i + 32) <= int_max)%Z ->
  match parse_step src p c t, c_parse_step q v x with
  | None, None => True
  | Some (p', c'), Some mm =>
    ends (fun h n => heap_size h + N.to_nat n + (m + 1) <= heap_size (s_heap s) + round_need m i) (moved s own m i v p' c' (wasted_step p c t)) (mm s) /\
    length (c_ignore c') <= S (length (c_ignore c))
  | _, _ => False
  end.
Proof.
  intros U Ap Na Lx Vs Ws Lm Li Ii.
  (* nothing is stored *)
  assert (Go : forall p' q' c' v', at_position s own m p' q' -> named_at s own m p' v' c' -> under_way s v' c' own -> v_source v' = v_source v ->
    ends (fun h n => heap_size h + N.to_nat n + (m + 1) <= heap_size (s_heap s) + round_need m i) (moved s own m i v p' c' 0) (wret (q', v') s)).
  { intros p' q' c' v' A1 N1 U1 S1. constructor. exists own. cbn [fst snd]. splits; auto; [apply evolves_refl|]. unfold round_need. lia. }
  (* a filter is appended *)
  assert (App : forall a f p' q', arguments_for s own m a f -> inside p = true -> inside p' = true -> (forall s' own', at_position s' own' m p' q') ->
    ends (fun h n => heap_size h + N.to_nat n + (m + 1) <= heap_size (s_heap s) + round_need m i) (moved s own m i v p' (cf_append_filter f c) 0)
      ((let$ v := c_cf_append_filter a v in wret (q', v)) s)).
  { intros a f p' q' Wa In In' Hq. assert (Sf : filter_size f <= 56 + 2 * (m + 1)).
    { destruct Wa as (b & y & rt & B & Y & _ & ->). unfold filter_size. cbn [make_filter f_builtin f_filename].
      assert (forall o z, word_in s own m o z -> room_for z <= m + 1) as Rm by (intros [o|] [z|]; cbn; try tauto; lia). apply Rm in B, Y. lia. }
    eapply ends_bind; [eapply ends_weaken; [apply (append_filter_ok s v c own m a f U Wa Lm)| |intros r s' HQ; exact HQ]; intros h n L; cbv beta in L; unfold round_need; lia|].
    intros v' s' (own' & U' & E' & Nm & So & Sz). constructor. exists own'. cbn [fst snd]. splits; auto; [|unfold round_need; lia].
    apply (named_evolves own own' 0 s s'); [exact E'|]. unfold named_at in *. rewrite In in Na. rewrite In', Nm. exact Na. }
  assert (Keep : forall p', inside p = inside p' -> named_at s own m p v c -> named_at s own m p' v c) by (intros p' E; unfold named_at; now rewrite E).
  assert (Ia : forall f, length (c_ignore (cf_append_filter f c)) <= S (length (c_ignore c))) by (intros f; cbn; lia).
  assert (Plain := fun k => plain_for s own m k).
  destruct p, q; cbn [at_position] in Ap; try contradiction; destruct t, x; cbn [lexeme_at] in Lx; try contradiction; cbn [parse_step c_parse_step string_token]; auto;
    repeat match goal with H : _ = _ |- _ => subst; cbn [wasted_step] in * end.
  all: try match goal with |- context[match ?k with K_builtin => _ | _ => _ end] => destruct k; cbn [wasted_step]; auto end.
  all: try match goal with |- context[match ?k with F_uncgi => _ | _ => _ end] => destruct k; cbn [wasted_step]; auto end.
  all: try match goal with |- context[if ?b then _ else _] => is_var b; destruct b; cbn [wasted_step]; auto end.
  all: cbn [takes_table wasted_step]; auto.
  all: try (split; [apply Go; auto; fail|lia]).
  all: try (split; [apply App; auto; fail|auto]).
  all: try match goal with |- context[method_state ?k] => pose proof (method_same k) as Mk; destruct (method_state k), (q_method k); try contradiction; auto;
    specialize (Mk s own m v c) as (M1 & M2 & M3); split; [apply Go; auto; apply M3; exact Na|lia] end.
  all: try (split; [apply Go; auto; cbn; auto; fail|lia]).
  all: try (split; [apply App; auto; cbn; auto; fail|auto]).
  all: try (split; [apply Go; auto; cbn; exists None, None, true; cbn; auto; fail|lia]).
  all: try (split; [apply Go; auto; cbn; exists None, None, false; cbn; auto; fail|lia]).
  - split; [|cbn; lia]. apply Go; auto.
    + reflexivity.
    + unfold named_at in *. cbn in *. destruct name0 as [name0|]; [|easy]. exists name0, name. auto.
  - destruct Ap as (-> & <-). split; [|lia]. apply Go; auto. exists (Some s0), None, false. cbn. auto.
  - destruct Ap as (-> & <-). split; [|lia]. apply Go; auto. exists None, (Some s0), false. cbn. auto.
  - destruct Ap as (-> & <-). split; [|lia]. apply Go; auto. exists (Some s0), None, false. cbn. auto.
  - destruct Ap as (-> & <-). split; [|lia]. apply Go; auto. exists None, (Some s0), false. cbn. auto.
  - split; [|cbn; lia]. cbn in Na. destruct Na as (name & nm & Vn & Cn & Wn). rewrite Cn.
    assert (Ln : length nm <= m) by apply Wn. assert (Lsr : length src <= m) by apply Ws.
    eapply ends_bind; [eapply ends_weaken; [apply (append_sequence_ok s v c own m name nm source src U Vn Cn Wn Vs Ws Lm)| |intros r s' HQ; exact HQ]; intros h n L; cbv beta in L; unfold round_need; lia|].
    intros v' s' (own' & U' & E' & So & Sz). constructor. exists own'. cbn [fst snd]. splits; auto; try exact I; try reflexivity. unfold round_need; lia.
  - split; [|cbn; rewrite app_length; cbn; lia]. destruct s1 as [file|]; [|easy].
    assert (Ln : length s0 <= m) by apply Ap.
    eapply ends_bind; [eapply ends_weaken; [apply (append_ignore_ok s v c own m file s0 U Ap Lm ltac:(lia))| |intros r s' HQ; exact HQ]; intros h n L; cbv beta in L; unfold round_need; lia|].
    intros v' s' (own' & -> & U' & E' & Sz). constructor. exists own'. cbn [fst snd]. splits; auto; try reflexivity. unfold round_need; lia.
Qed.

(** ** Outcomes *)

Lemma follows_weaken {A B} (R R' R1 R1' : heap -> N -> Prop) (Q Q1 : B -> A -> store_t -> Prop) pure t : follows R R' Q pure t ->
  (forall h n, R h n -> R1 h n) -> (forall h n, R' h n -> R1' h n) -> (forall b a s, Q b a s -> Q1 b a s) -> follows R1 R1' Q1 pure t.
Proof.
  intros F HR HR' HQ. destruct F.
  - eapply follows_done; eauto.
  - now apply follows_exit.
  - now apply follows_ub.
  - eapply follows_refused; eauto.
  - eapply follows_unnoticed; eauto.
Qed.

Lemma follows_ends {A B C} (R R' R0 : heap -> N -> Prop) (Q : B -> A -> store_t -> Prop) (Q0 : C -> store_t -> Prop) pure (m : wmem C) (k : C -> wmem A) s :
  ends R0 Q0 (m s) -> (forall h n, R0 h n -> R h n) -> (forall a s', Q0 a s' -> follows R R' Q pure (k a s')) -> follows R R' Q pure (Words.wbind m k s).
Proof.
  intros E HR K. unfold Words.wbind. destruct E as [a s' q|h n message E r].
  - rewrite tbind_done. now apply K.
  - cbn [tbind]. apply (follows_refused R R' Q pure [] (fst pure) h n message); auto.
Qed.

Lemma follows_say {A B} (R R' : heap -> N -> Prop) (Q : B -> A -> store_t -> Prop) x pure t : follows R R' Q pure t ->
  follows R R' Q (let% _ := print_out x in pure) (let% _ := print_out x in t).
Proof.
  intros F. assert (X : exists o, forall T (y : talk T), (let% _ := print_out x in y) = (o ++ fst y, snd y)).
  { destruct x as [|c x]; [exists []|exists [(Stdout, c :: x)]]; intros T [o r]; reflexivity. }
  destruct X as (o & X). rewrite !X. destruct F; cbn [fst snd].
  - eapply follows_done; eauto. now rewrite H.
  - apply follows_exit. now rewrite H.
  - apply follows_ub. now rewrite H.
  - rewrite app_assoc. eapply (follows_refused _ _ _ _ (o ++ said) said'); eauto. cbn. rewrite H. now rewrite app_assoc.
  - eapply follows_unnoticed; eauto.
Qed.

Lemma yyerror_follows {A B} (R R' : heap -> N -> Prop) (Q : B -> A -> store_t -> Prop) s v line text source src : v_source v = Some source -> cstr_at (s_heap s) source src ->
  follows R R' Q (yyerror_says src line text) (c_yyerror v line text s).
Proof.
  intros Vs C. unfold c_yyerror. rewrite Vs. cbn [deref]. rewrite wbind_ret. rewrite (wbind_done _ _ _ _ _ (bytes_done _ _ _ _ (read_ok _ _ _ C))).
  unfold yyerror_says, complain, say, quietly. cbn [tbind]. now apply follows_exit.
Qed.

(** ** The parser *)

(** What is lost. *)
Fixpoint wasted (fuel : nat) (src : str) (p : pstate) (c : cf_state) (input : str) : nat :=
  match fuel, input with
  | S fuel', _ :: _ =>
    match lex_round_says input with
    | Ok (Lexed _ None, _, _, rest) => wasted fuel' src p c rest
    | Ok (Lexed _ (Some t), _, _, rest) =>
      match parse_step src p c t with
      | Some (p', c') => (if is_string t then 1 else 0) + wasted_step p c t + wasted fuel' src p' c' rest
      | None => 0
      end
    | _ => 0
    end
  | _, _ => 0
  end.

Lemma under_way_grow s more v c own : under_way s v c own -> under_way (grow s more) v c own.
Proof.
  intros U. apply (under_way_same s); [|exact U]. intros b I. apply (grown_at _ _ more); [reflexivity|reflexivity|]. exact (under_way_there _ _ _ _ _ U I).
Qed.

Lemma evolves_grow own s more : evolves own own (live more) s (grow s more).
Proof. apply (evolves_new _ _ _ _ _ more); auto. lia. Qed.

Theorem yyparse_ok contents m i source src : length contents <= m -> (N.of_nat m < 2 ^ 32)%N -> (Z.of_nat (i + 32) <= int_max)%Z ->
  forall fuel p q v c line input s own, (exists a, contents = a ++ input) -> under_way s v c own -> at_position s own m p q -> named_at s own m p v c ->
  v_source v = Some source -> word_in s own m (Some source) (Some src) -> length (c_ignore c) + fuel <= i ->
  follows (fun h n => heap_size h + N.to_nat n <= heap_size (s_heap s) + fuel * round_need m i)
    (fun h n => heap_size h + N.to_nat n <= heap_size (s_heap s) + fuel * round_need m i /\ exists a text b, contents = a ++ text ++ b /\ n = (strlen (cstr text) + 1)%N)
    (fun b a s' => snd b = snd a /\ exists own', under_way s' (fst a) (fst b) own' /\ c_filters (fst b) = [] /\ evolves own own' (wasted fuel src p c input) s s' /\
       heap_size (s_heap s') <= heap_size (s_heap s) + fuel * round_need m i)
    (yyparse_says fuel src p c line input) (c_yyparse fuel q v line input s).
Proof.
  intros Lc Lm Ii. induction fuel as [|fuel IH]; intros p q v c line input s own Suf U Ap Na Vs Ws Li.
  - cbn [yyparse_says c_yyparse wasted]. destruct p, q; cbn [at_position] in Ap; try contradiction; try (apply (yyerror_follows _ _ _ s v line [] source src Vs (proj1 Ws))).
    eapply follows_done; [reflexivity|]. cbn [fst snd]. split; [reflexivity|]. exists own. splits; auto; [|lia]. apply evolves_refl.
  - destruct input as [|ch input].
    { cbn [yyparse_says c_yyparse wasted]. destruct p, q; cbn [at_position] in Ap; try contradiction; try (apply (yyerror_follows _ _ _ s v line [] source src Vs (proj1 Ws))).
      eapply follows_done; [reflexivity|]. cbn [fst snd]. split; [reflexivity|]. exists own. splits; auto; [|lia]. apply evolves_refl. }
    cbn [yyparse_says c_yyparse wasted]. set (inp := ch :: input) in *.
    assert (Li' : length inp <= m) by (destruct Suf as (a & ->); rewrite app_length in Lc; lia).
    destruct (lex_ok s own m inp ltac:(discriminate) (fun b => under_way_there s v c own b U) Li' Lm)
      as [(a & text & b & message & E & Rf & Lt)|[(w & U1 & U2)|(printed & t & x & text & nl & rest & more & E & C & (a & Er) & Tx)]].
    + (* strdup fails *)
      eapply follows_unnoticed; [exact Rf|]. split.
      * pose proof (cstr_len text). unfold strlen, round_need. cbn [Nat.mul]. lia.
      * destruct Suf as (a' & Suf). exists (a' ++ a), text, b. split; [|reflexivity]. rewrite Suf, E. now rewrite !app_assoc.
    + (* undefined *)
      rewrite U1. unfold Words.wbind. rewrite U2. now apply follows_ub.
    + rewrite E. unfold Words.wbind at 1. rewrite C, tbind_assoc. change (quietly (Ok ?y)) with (done y). rewrite tbind_done. apply follows_say. rewrite tbind_done.
      assert (Suf' : exists a, contents = a ++ rest) by (destruct Suf as (a' & ->); exists (a' ++ a); rewrite Er; apply app_assoc).
      destruct t as [t|], x as [x|]; try contradiction.
      * destruct Tx as (Lx & Lv & Sz). set (s1 := grow s more) in *.
        assert (E1 : evolves own own (if is_string t then 1 else 0) s s1) by (rewrite <- Lv; apply evolves_grow).
        assert (U1 : under_way s1 v c own) by now apply under_way_grow.
        assert (Sz1 : heap_size (s_heap s1) <= heap_size (s_heap s) + (m + 1)) by (unfold s1; cbn [s_heap grow]; rewrite size_app; lia).
        pose proof (step_ok s1 own m i p q v c t x source src U1 (position_evolves _ _ _ _ _ _ _ _ E1 Ap) (named_evolves _ _ _ _ _ _ _ _ _ E1 Na) Lx Vs (word_evolves _ _ _ _ _ _ _ _ E1 Ws) Lm ltac:(lia) Ii) as St.
        destruct (parse_step src p c t) as [[p' c']|], (c_parse_step q v x) as [mm|]; try contradiction.
        -- destruct St as (St & Lig). eapply follows_ends; [exact St| |].
           ++ intros h n L. cbv beta in L. cbn [Nat.mul]. lia.
           ++ intros [q' v'] s2 (own' & U2 & E2 & Ap2 & Na2 & So2 & Sz2). cbn [fst snd] in *.
              assert (E12 := evolves_trans _ _ _ _ _ _ _ _ E1 E2).
              eapply follows_weaken; [apply (IH p' q' v' c' (line + nl)%N rest s2 own' Suf' U2 Ap2 Na2); [congruence|exact (word_evolves _ _ _ _ _ _ _ _ E12 Ws)|lia]| | |].
              ** intros h n L. cbv beta in L. cbn [Nat.mul]. lia.
              ** intros h n (L & X). cbn [Nat.mul]. split; [lia|exact X].
              ** intros b0 a0 s3 (En & own3 & U3 & Fl & E3 & Sz3). split; [exact En|]. exists own3. splits; auto; [|cbn [Nat.mul]; lia].
                 exact (evolves_trans _ _ _ _ _ _ _ _ E12 E3).
        -- apply (yyerror_follows _ _ _ s1 v _ text source src Vs). exact (proj1 (word_evolves _ _ _ _ _ _ _ _ E1 Ws)).
      * subst more. assert (G0 : grow s [] = s) by (unfold grow; rewrite app_nil_r; now destruct s). rewrite G0.
        eapply follows_weaken; [apply (IH p q v c (line + nl)%N rest s own Suf' U Ap Na Vs Ws); lia| | |].
        -- intros h n L. cbv beta in L. cbn [Nat.mul]. lia.
        -- intros h n (L & X). cbn [Nat.mul]. split; [lia|exact X].
        -- intros b0 a0 s3 (En & own3 & U3 & Fl & E3 & Sz3). split; [exact En|]. exists own3. splits; auto. cbn [Nat.mul]; lia.
Qed.

End parser.
