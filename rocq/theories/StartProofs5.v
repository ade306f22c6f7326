(** * What the program says while it starts: proofs *)

From Verif Require Import Base BaseFacts Stdio ParseTableSpec Table ConfigLex ConfigSpec ConfigLexProofs Filter Spoof Filelist FilelistProofs File FileSpec Prog ProgFacts Warnings WarningsProofs
  ConfigParse ConfigLoad ConfigLoadSpec Options OptionsSpec OptionsProofs Startup StartProofs StartOptions Main MainSpec MainProofs DumpProofs
  RunProofs InlineRunProofs GenSpec CheckSpec StartSpec StartProofs2 StartProofs3 StartProofs4.

Local Open Scope nat_scope.

(** ** The list of sequences is determined *)

Lemma if_any_one depth (P : str -> Prop) a b : (forall t t', P t -> P t' -> t = t') -> if_any depth P a -> if_any depth P b -> a = b.
Proof.
  intros U [(t & T & ->)|[N ->]] [(t' & T' & ->)|[N' ->]]; [now rewrite (U _ _ T T')|now apply N' in T|now apply N in T'|reflexivity].
Qed.

Lemma parameter_one f t t' : parameter_of f t -> parameter_of f t' -> t = t'.
Proof.
  intros [C R|C R|z k x C Z1 Z2 Z3] [C' R'|C' R'|z' k' x' C' Z1' Z2' Z3']; try congruence.
  f_equal. assert (A : in_decimal (f_max_length f) x) by (exists z, k; auto).
  assert (B : in_decimal (f_max_length f) x') by (exists z', k'; auto). apply in_decimal_one in A, B. congruence.
Qed.

Lemma described_one f a b : described f a -> described f b -> a = b.
Proof.
  intros (a1 & a2 & a3 & -> & A1 & A2 & A3) (b1 & b2 & b3 & -> & B1 & B2 & B3).
  rewrite (if_any_one _ _ _ _ (parameter_one f) A2 B2). f_equal; [|f_equal].
  - eapply if_any_one; [|exact A1|exact B1]. intros t t' (m & E & ->) (m' & E' & ->). congruence.
  - eapply if_any_one; [|exact A3|exact B3]. intros t t' [x E|x E E1] [y F|y F F1]; congruence.
Qed.

Lemma split_one (before : list sequence_t) : forall s after before' after',
  before ++ s :: after = before' ++ s :: after' ->
  Forall (fun x => s_name x <> s_name s) before -> Forall (fun x => s_name x <> s_name s) before' -> before = before' /\ after = after'.
Proof.
  induction before as [|x before IH]; intros s after before' after' E F F'; destruct before' as [|x' before']; cbn [app] in E.
  - now injection E as ->.
  - injection E as -> _. inversion F'; subst. easy.
  - injection E as -> _. inversion F; subst. easy.
  - injection E as -> E. inversion F; inversion F'; subst. destruct (IH _ _ _ _ E) as [-> ->]; auto.
Qed.

Lemma marked_one entry entry' seqs name a b : (forall m s, entry m s = entry' m s) ->
  marked entry seqs name a -> marked entry' seqs name b -> a = b.
Proof.
  intros X [[N ->]|(b1 & s1 & a1 & -> & C1 & F1 & ->)] [[N' ->]|(b2 & s2 & a2 & E & C2 & F2 & ->)]; try congruence.
  - apply map_ext. auto.
  - rewrite C1 in C2. injection C2 as <-. destruct (split_one _ _ _ _ _ E F1 F2) as [<- <-].
    rewrite X. rewrite (map_ext _ _ (X ""%string) b1), (map_ext _ _ (X ""%string) a1). reflexivity.
Qed.

Lemma entry_one (v : bool) describe describe' : (forall f, described f (describe f)) -> (forall f, described f (describe' f)) ->
  forall m s, (if v then long_entry describe else short_entry) m s = (if v then long_entry describe' else short_entry) m s.
Proof.
  intros D D' m s. destruct v; [|reflexivity]. unfold long_entry. do 8 f_equal.
  apply flat_map_ext. intros f. now apply (described_one f).
Qed.

Lemma wanted_one s ws n n' : wanted_sequence s ws n -> wanted_sequence s ws n' -> n = n'.
Proof. intros (x & X & ->) (y & Y & ->). now rewrite (last_of_unique _ _ _ _ X Y). Qed.

(** ** From the command line on *)

Lemma options_ok s argv ws fs : asks (posix_env s) (tl argv) ws fs -> stays ws ->
  In List_sequences ws \/ fs <> [] \/ In Inline_mode ws \/ as_inline argv ->
  exists o, granted (inline_bin argv) (e_getenv (m_env s) (bs "DETOX_SEQUENCE")) ws o /\ o_platform o = m_platform s /\
    read_options s argv = ([], Ok o) /\
    (o_list_sequences o = false -> fs = [] -> o_is_inline_mode o = true) /\
    (o_list_sequences o = false -> exists l, o_files o = Some l /\ good l /\ items (Some l) = fs /\ fl_ptr l = 0).
Proof.
  intros A N W. destruct (options_outcome s argv ws fs A N) as (o & G & Pf & E & _ & F).
  assert (I : o_list_sequences o = false -> fs = [] -> o_is_inline_mode o = true).
  { intros NL Z. apply (g_inline _ _ _ _ G). destruct W as [W|[W|[W|W]]].
    - apply (g_list _ _ _ _ G) in W. congruence.
    - now elim W.
    - now right.
    - left. now apply as_inline_iff. }
  exists o. splits; auto. rewrite E. destruct (o_list_sequences o); [reflexivity|]. destruct fs; [|reflexivity]. now rewrite I.
Qed.

Lemma main_read fuel s argv o : read_options s argv = ([], Ok o) ->
  main fuel s argv = pbind (talking (config_file_load_says (m_env s) (o_check_config_file o))) (fun c => main_rest fuel s o c).
Proof. intros R. rewrite main_eq. unfold read_options in R. rewrite R. reflexivity. Qed.

Lemma load_agrees env file said c printed c' :
  config_file_load_says env file = (said, Ok c) -> config_file_load env file = (printed, Ok c') -> c = c'.
Proof.
  intros E E'. destruct (config_file_load_mirrors env file) as [_ M]. rewrite same_res, E, E' in M. now injection M.
Qed.

Lemma load_both env file said n : configured env file said (Goes_on n) ->
  exists c printed, config_file_load_says env file = (said, Ok c) /\ config_file_load env file = (printed, Ok c).
Proof.
  intros C. destruct (configured_says _ _ _ _ C) as (c & E). exists c.
  destruct (config_file_load_mirrors env file) as [_ M]. rewrite same_res, E in M. cbn [snd] in M.
  destruct (config_file_load env file) as [p r]. cbn [snd] in M. subst r. eauto.
Qed.

Lemma opens_over s argv said w : opens s argv said (Over w) -> forall fuel, main fuel s argv = told said (Stop w).
Proof.
  intros H fuel. remember (Over w) as e eqn:Ee.
  destruct H as [said n D|ws fs file said w' A N W L C|ws fs file said n c printed name describe entries A N LS L C E Wn De Mk
                |ws fs file said n c printed name A N NL W L C E Wn Ch|ws fs file said n c printed name seq said' A N NL W L C E Wn Ch P
                |ws fs file said n c printed name seq said' A N NL W L C E Wn Ch P]; try discriminate; injection Ee as <-.
  - rewrite main_eq, talking_bind. pose proof (dismissed_says _ _ _ _ D) as R. unfold read_options in R. rewrite R. reflexivity.
  - destruct (options_ok _ _ _ _ A N W) as (o & G & _ & R & _). rewrite (main_read _ _ _ _ R), talking_bind.
    rewrite (last_of_unique _ _ _ _ (g_config _ _ _ _ G) L).
    destruct (configured_says _ _ _ _ C) as (r & -> & F). destruct F; reflexivity.
  - destruct (list_mode fuel s argv ws fs A N LS) as (file' & name' & L' & Wn' & M).
    rewrite (last_of_unique _ _ _ _ L' L) in M. rewrite (wanted_one _ _ _ _ Wn' Wn) in M.
    destruct (load_both _ _ _ _ C) as (c' & printed' & E1 & E2). rewrite E1 in M. rewrite E in E2. injection E2 as _ <-.
    destruct M as (describe' & entries' & De' & Mk' & ->).
    rewrite (marked_one _ _ _ _ _ _ (entry_one (existsb is_verbose ws) _ _ De' De) Mk' Mk).
    rewrite told_app. reflexivity.
  - destruct (options_ok _ _ _ _ A N (or_intror W)) as (o & G & _ & R & _). rewrite (main_read _ _ _ _ R), talking_bind.
    rewrite (last_of_unique _ _ _ _ (g_config _ _ _ _ G) L).
    destruct (load_both _ _ _ _ C) as (c' & printed' & E1 & E2). rewrite E1. rewrite E in E2. injection E2 as _ <-. cbn [fst snd].
    unfold main_rest. destruct (ignore_list_ok c) as (ign & -> & _). cbn [lift pbind].
    destruct (o_list_sequences o) eqn:LO; [now apply (g_list _ _ _ _ G) in LO|].
    rewrite (wanted_one _ _ _ _ (g_sequence _ _ _ _ G) Wn), Ch, told_app. reflexivity.
  - destruct (options_ok _ _ _ _ A N (or_intror W)) as (o & G & _ & R & _). rewrite (main_read _ _ _ _ R), talking_bind.
    rewrite (last_of_unique _ _ _ _ (g_config _ _ _ _ G) L).
    destruct (load_both _ _ _ _ C) as (c' & printed' & E1 & E2). rewrite E1. rewrite E in E2. injection E2 as _ <-. cbn [fst snd].
    unfold main_rest. destruct (ignore_list_ok c) as (ign & -> & _). cbn [lift pbind].
    destruct (o_list_sequences o) eqn:LO; [now apply (g_list _ _ _ _ G) in LO|].
    rewrite (wanted_one _ _ _ _ (g_sequence _ _ _ _ G) Wn), Ch, told_app, talking_bind.
    destruct (review_says _ _ _ _ P) as (r & -> & ->). reflexivity.
Qed.

Lemma opens_work s argv said ws fs c : opens s argv said (Work ws fs c) ->
  exists o, started s argv ws fs o c /\ prelude s ws c said /\
    forall fuel, main fuel s argv = told said (work fuel o fs (o_files_to_ignore o)).
Proof.
  intros H. remember (Work ws fs c) as e eqn:Ee.
  destruct H as [? ? D|? ? ? ? ? ? ? ? ?|? ? ? ? ? ? ? ? ? ? ? ? ? ? ?
                |? ? ? ? ? ? ? ? A N NL W L C E Wn Ch|? ? ? ? ? ? ? ? ? ? A N NL W L C E Wn Ch P
                |ws' fs' file said n c' printed name seq said' A N NL W L C E Wn Ch P]; try discriminate. injection Ee as -> -> ->.
  destruct (options_ok _ _ _ _ A N (or_intror W)) as (o & G & Pf & R & Fi & Fl).
  pose proof (last_of_unique _ _ _ _ (g_config _ _ _ _ G) L) as Lo.
  pose proof (wanted_one _ _ _ _ (g_sequence _ _ _ _ G) Wn) as No.
  destruct (load_both _ _ _ _ C) as (c' & printed' & E1 & E2). rewrite E in E2. injection E2 as _ <-.
  destruct (ignore_list_ok c) as (ign & IL & Ui & Ci & Ii).
  assert (LO : o_list_sequences o = false).
  { destruct (o_list_sequences o) eqn:LO; [now apply (g_list _ _ _ _ G) in LO|reflexivity]. }
  destruct (review_says _ _ _ _ P) as (r & Rs & (s1 & ->)).
  destruct (proj1 (quiet_like_eq _ _) (review_like s seq)) as [_ Rv]. rewrite Rs in Rv. cbn [snd] in Rv. symmetry in Rv.
  destruct (Fl LO) as (l & Ef & Gl & Il & Pl).
  exists (with_sequence (Some s1) ign o). splits.
  - constructor; auto.
    + apply (g_dry_run _ _ _ _ G).
    + apply (g_recurse _ _ _ _ G).
    + apply (g_special _ _ _ _ G).
    + apply (g_verbose _ _ _ _ G).
    + cbn [with_sequence o_is_inline_mode]. rewrite (g_inline _ _ _ _ G), inline_bin_called. reflexivity.
    + eauto.
    + exists name, seq, s1. splits; auto. exists (table_at s). split; [apply table_at_found|exact Rv].
  - exists file, name, seq, s1, said, said'. splits; auto.
  - intros fuel. rewrite (main_read _ _ _ _ R), talking_bind, Lo, E1. cbn [fst snd]. unfold main_rest. rewrite IL. cbn [lift pbind].
    rewrite LO, No, Ch, talking_bind, Rs, told_app. cbn [fst snd].
    cbn [with_sequence o_files o_files_to_ignore o_is_inline_mode]. rewrite Ef. cbn [filelist_count].
    rewrite (all_files_items l Gl Pl), Il. cbn [lift pbind]. do 2 f_equal. unfold work.
    cbn [with_sequence o_is_inline_mode]. destruct (o_is_inline_mode o); cbn [negb]; [|reflexivity].
    rewrite <- (good_length l Gl), Il. destruct fs; reflexivity.
Qed.

(** Every start is of one of these kinds. *)
Lemma opens_exists s argv : exists said e, opens s argv said e.
Proof.
  destruct (dismissed_or_read s argv) as [(said & n & D)|(ws & fs & A & N & W)]; [eexists; eexists; now apply op_dismissed in D; eauto|].
  destruct (options_ok _ _ _ _ A N W) as (o & G & _).
  pose proof (g_config _ _ _ _ G) as L. pose proof (g_sequence _ _ _ _ G) as Wn.
  destruct (every_configured (m_env s) (o_check_config_file o)) as (said & [n|w] & C).
  2: { eexists. eexists. eapply op_unreadable; eauto. }
  destruct (load_both _ _ _ _ C) as (c & printed & E1 & E2).
  destruct (o_list_sequences o) eqn:LO.
  - apply (g_list _ _ _ _ G) in LO.
    destruct (dump_text c (o_sequence_name o) (existsb is_verbose ws) (load_sourced _ _ _ _ E2)) as (entries & Mk & _).
    eexists. eexists. eapply op_list; eauto. exact filter_described.
  - assert (NL : ~ In List_sequences ws) by (intros I; apply (g_list _ _ _ _ G) in I; congruence).
    destruct W as [W|W]; [easy|].
    destruct (sequence_choose_default (cf_sequences c) (o_sequence_name o)) as [seq|] eqn:Ch.
    + destruct (every_prepared s (s_filters seq)) as (said' & [|] & P); eexists; eexists; [eapply op_works|eapply op_no_table]; eauto.
    + eexists. eexists. eapply op_no_sequence; eauto.
Qed.

(** ** As stated in PropStart.v *)

Lemma over_traces s argv said w : opens s argv said (Over w) -> forall fuel tr,
  (forall w', trace_of (main fuel s argv) tr (Stop w') <-> tr = map heard said /\ w' = w) /\
  (forall n, ~ trace_of (main fuel s argv) tr (Ret n)).
Proof.
  intros O fuel tr. rewrite (opens_over _ _ _ _ O fuel). split.
  - intros w'. split.
    + intros T. apply stop_told in T. destruct T as (t & -> & T). unfold trace_of in T. cbn [runs] in T.
      destruct T as [(-> & _ & E)|[]]. injection E as ->. now rewrite app_nil_r.
    + intros [-> ->]. apply stop_told. exists []. rewrite app_nil_r. split; [reflexivity|]. unfold trace_of. cbn [runs]. auto.
  - intros n T. apply done_told in T. destruct T as (t & -> & T). unfold trace_of in T. cbn [runs] in T.
    destruct T as [(_ & _ & E)|[]]. discriminate.
Qed.

Lemma work_traces s argv said ws fs c : opens s argv said (Work ws fs c) -> exists o, started s argv ws fs o c /\
  forall fuel tr p, trace_of (main fuel s argv) tr p ->
    (exists said1 said2, said = said1 ++ said2 /\ tr = map heard said1) \/
    (exists tr', tr = map heard said ++ tr' /\ trace_of (work fuel o fs (o_files_to_ignore o)) tr' p).
Proof.
  intros O. destruct (opens_work _ _ _ _ _ _ O) as (o & St & _ & E). exists o. split; [exact St|]. intros fuel tr p T.
  rewrite E in T. apply MainProofs.runs_told in T.
  destruct T as [(l1 & l2 & -> & _ & -> & _)|(tr2 & u & -> & _ & R)]; [eauto|]. right. exists tr2. split; [reflexivity|]. now destruct u.
Qed.

(** Newlines. *)
Lemma newlines_app a b : newlines (a ++ b) = (newlines a + newlines b)%N.
Proof. unfold newlines. rewrite filter_app, app_length. lia. Qed.

Lemma newlines_none s : ~ In newline s -> newlines s = 0%N.
Proof.
  unfold newlines. induction s as [|c s IH]; intros N; [reflexivity|]. cbn [filter].
  destruct (beq newline c) eqn:E; [apply beq_eq in E; subst; elim N; now left|]. apply IH. intros I. apply N. now right.
Qed.

Lemma keyword_newline s k : same_text s (keyword_text k) -> ~ In newline s.
Proof.
  intros S. assert (N : ~ In newline (keyword_text k)).
  { destruct k; cbv; intros H; repeat (destruct H as [H|H]; [discriminate|]); easy. }
  revert N. induction S as [|a b s l SL S IH]; intros N; [easy|]. intros [->|I].
  - apply N. left. destruct SL as [E|(n & L & [[A B]|[A B]])].
    + now symmetry.
    + exfalso. change (bN newline) with 10%N in A. lia.
    + exfalso. change (bN newline) with 10%N in A. lia.
  - apply IH; [|exact I]. intros J. apply N. now right.
Qed.

Lemma forall_newline (p : byte -> Prop) s : (forall c, p c -> c <> newline) -> Forall p s -> ~ In newline s.
Proof. intros H F I. rewrite Forall_forall in F. now apply (H newline (F _ I)). Qed.

Lemma letter_newline c : ConfigSpec.letter c -> c <> newline.
Proof. intros L ->. cbv in L. repeat (destruct L as [L|L]; [discriminate|]). easy. Qed.

Lemma decimal_newline c : ConfigSpec.decimal c -> c <> newline.
Proof. intros L ->. cbv in L. repeat (destruct L as [L|L]; [discriminate|]). easy. Qed.

Lemma rule_newline r s : matches (rule_regex r) s -> r = R_newline \/ r = R_qstring \/ ~ In newline s.
Proof.
  intros M. destruct r; auto; right; right; cbn [rule_regex] in M; unfold Char in M.
  - apply matches_plus in M. destruct M as [_ M]. apply (forall_newline _ _) in M; [exact M|]. intros c [->| ->]; discriminate.
  - apply matches_char_seq in M. destruct M as (c & y & -> & -> & M). apply matches_star in M. intros [H|H]; [discriminate|].
    rewrite Forall_forall in M. now apply M in H.
  - apply matches_letters in M. exact (keyword_newline _ _ M).
  - apply matches_class in M. destruct M as (c & -> & ->). intros [H|[]]. discriminate.
  - apply matches_class in M. destruct M as (c & -> & ->). intros [H|[]]. discriminate.
  - apply matches_char_seq in M. destruct M as (c & y & -> & L & M). apply matches_star in M.
    apply (forall_newline _ _) in M.
    + intros [H|H]; [|now apply M]. subst. now apply (letter_newline _ L).
    + intros x [X|[X| ->]]; [now apply letter_newline|now apply decimal_newline|discriminate].
  - apply matches_plus in M. destruct M as [_ M]. exact (forall_newline _ _ decimal_newline M).
  - apply matches_class in M. destruct M as (c & -> & ->). intros [H|[]]. discriminate.
Qed.

(** Newlines are counted, but for those at the end of unterminated strings. *)
Lemma read_newlines input ts k said rest : read_to input ts k said rest ->
  exists before, input = before ++ rest /\ newlines before = (k + N.of_nat (length said))%N.
Proof.
  induction 1 as [input|input sx rest ts n said rest' M R IH|input sx rest r ts n said rest' M NR E R IH
                 |input sx rest r printed t ts n said rest' M E R IH|c rest ts n said rest' X R IH].
  - exists []. auto.
  - destruct IH as (b & -> & B). pose proof (munch_match _ _ _ _ M) as MM. destruct M as (-> & _).
    cbn [rule_regex] in MM. unfold Char in MM. apply matches_class in MM. destruct MM as (c & -> & ->).
    exists ([newline] ++ b). split; [now rewrite <- app_assoc|]. rewrite newlines_app, B. change (newlines [newline]) with 1%N. lia.
  - destruct IH as (b & -> & B). pose proof (munch_match _ _ _ _ M) as MM. destruct M as (-> & _).
    exists (sx ++ b). split; [now rewrite <- app_assoc|]. rewrite newlines_app, B.
    destruct (rule_newline _ _ MM) as [->|[->|N]]; [easy|inversion E|]. rewrite (newlines_none _ N). lia.
  - destruct IH as (b & -> & B). pose proof (munch_match _ _ _ _ M) as MM. destruct M as (-> & _).
    exists (sx ++ b). split; [now rewrite <- app_assoc|]. rewrite newlines_app, B, app_length.
    enough (newlines sx = N.of_nat (length (spoken printed))) as -> by lia.
    destruct (rule_newline _ _ MM) as [->|[->|N]]; [inversion E| |].
    + cbn [rule_regex] in MM. apply matches_char_seq in MM. destruct MM as (q & y & -> & -> & MM). apply matches_seq in MM.
      destruct MM as (x & z & -> & F & Z). apply matches_star in F. apply matches_class in Z. destruct Z as (d & -> & Z).
      assert (NX : ~ In newline x) by (intros H; rewrite Forall_forall in F; now apply F in H).
      change (quote :: x ++ [d]) with ([quote] ++ x ++ [d]). rewrite !newlines_app, (newlines_none _ NX). change (newlines [quote]) with 0%N.
      inversion E as [| | | | | | | | |s0 N0 EA EB EC|s0 N0 EA EB EC]; subst.
      * apply app_inj_tail in EB. destruct EB as [_ <-]. reflexivity.
      * apply app_inj_tail in EB. destruct EB as [_ <-]. reflexivity.
    + rewrite (newlines_none _ N). inversion E; subst; try reflexivity. exfalso. apply N. right. apply in_app_iff. right. now left.
  - destruct IH as (b & -> & B). exists ([c] ++ b). split; [reflexivity|]. rewrite newlines_app, B.
    rewrite (newlines_none [c]); [lia|]. intros [->|[]]. apply (X [newline] (b ++ rest') (rule_regex R_newline) R_newline).
    + reflexivity.
    + apply flex_in. unfold rules. simpl. auto.
    + discriminate.
    + cbn [rule_regex]. now constructor.
Qed.

(** The scanner speaks on standard output only. *)
Lemma read_silent input ts k said rest : read_to input ts k said rest -> Forall (fun x => fst x = Stderr) said -> said = [].
Proof.
  induction 1 as [input|input sx rest ts n said rest' M R IH|input sx rest r ts n said rest' M NR E R IH
                 |input sx rest r printed t ts n said rest' M E R IH|c rest ts n said rest' X R IH]; intros F; auto.
  destruct printed as [|c printed]; [now apply IH|]. cbn [spoken app] in F. inversion F. discriminate.
Qed.

(** The line of a token that is out of place, in the first file. *)
Lemma token_line filename bytes said w : file_read filename 1 bytes said (Gives_up w) -> Forall (fun x => fst x = Stderr) said ->
  w = StopUB ReadPastEnd \/
  exists before after text line, bytes = before ++ text ++ after /\ in_decimal (1 + newlines before) line /\
    said = syntax_error filename line text.
Proof.
  intros R F. inversion R as [|ts k said0 rest sx rest' r printed t line RT P M E NP D|ts k said0 line RT P NC D|ts k said0 s0 d rest RT P N Q L Z]; subst.
  - destruct (read_newlines _ _ _ _ _ RT) as (before & -> & B). right. destruct M as (-> & _).
    apply Forall_app in F. destruct F as [F0 F]. apply Forall_app in F. destruct F as [F1 _].
    assert (Z0 : said0 = []) by (apply (read_silent _ _ _ _ _ RT F0)). subst said0.
    assert (Z1 : printed = []) by (destruct printed; [easy|inversion F1; discriminate]). subst printed.
    exists before, rest', sx, line. splits; auto. now rewrite B, N.add_0_r.
  - destruct (read_newlines _ _ _ _ _ RT) as (before & -> & B). right.
    apply Forall_app in F. destruct F as [F0 _].
    assert (Z0 : said0 = []) by (apply (read_silent _ _ _ _ _ RT F0)). subst said0.
    exists before, [], [], line. splits; auto. now rewrite B, N.add_0_r.
  - now left.
Qed.

(** ** One start, one way to open *)

(** What is said first, and whether the program ends then. *)
Fixpoint preface {A} (p : prog A) : words * option stop :=
  match p with
  | Ret _ => ([], None)
  | Stop w => ([], Some w)
  | Call c k =>
    match c as c return (answer c -> prog A) -> words * option stop with
    | Print out text => fun k => ((out, text) :: fst (preface (k tt)), snd (preface (k tt)))
    | _ => fun _ => ([], None)
    end k
  end.

Lemma preface_told {A} said (p : prog A) : preface (told said p) = (said ++ fst (preface p), snd (preface p)).
Proof.
  induction said as [|[out text] said IH]; [cbn [told app]; now destruct (preface p)|]. cbn [told preface]. rewrite IH. reflexivity.
Qed.

Lemma work_preface fuel o fs l : (fs = [] -> o_is_inline_mode o = true) -> snd (preface (work fuel o fs l)) = None.
Proof.
  intros F. unfold work. destruct (o_is_inline_mode o); cbn [negb].
  - destruct fs; reflexivity.
  - destruct fs as [|f fs]; [now specialize (F eq_refl)|]. cbn [process_arguments]. unfold process_argument.
    destruct (0 <? o_verbose o)%N; reflexivity.
Qed.

Lemma prelude_one s ws c c' said said' : prelude s ws c said -> prelude s ws c' said' -> c = c' /\ said = said'.
Proof.
  intros (file & name & s0 & s1 & a & b & L & E & Wn & Ch & R & ->) (file' & name' & s0' & s1' & a' & b' & L' & E' & Wn' & Ch' & R' & ->).
  rewrite (last_of_unique _ _ _ _ L' L) in E'. rewrite E in E'. injection E' as <- <-. split; [reflexivity|].
  rewrite (wanted_one _ _ _ _ Wn' Wn), Ch in Ch'. injection Ch' as <-. rewrite R in R'. now injection R' as <- _.
Qed.

Lemma opens_one s argv said e said' e' : opens s argv said e -> opens s argv said' e' -> said = said' /\ e = e'.
Proof.
  assert (X : forall said w said' ws fs c, opens s argv said (Over w) -> opens s argv said' (Work ws fs c) -> False).
  { intros a w b ws fs c O O'. pose proof (opens_over _ _ _ _ O 0) as E. destruct (opens_work _ _ _ _ _ _ O') as (o & St & _ & E').
    rewrite (E' 0) in E. apply (f_equal preface) in E. rewrite !preface_told in E. cbn [preface fst snd] in E.
    rewrite (work_preface _ _ _ _ (st_files _ _ _ _ _ _ St)) in E. discriminate. }
  intros O O'. destruct e as [w|ws fs c], e' as [w'|ws' fs' c'].
  - pose proof (opens_over _ _ _ _ O 0) as E. rewrite (opens_over _ _ _ _ O' 0) in E. apply (f_equal preface) in E.
    rewrite !preface_told in E. cbn [preface fst snd] in E. rewrite !app_nil_r in E. now injection E as -> ->.
  - now apply (X _ _ _ _ _ _ O) in O'.
  - now apply (X _ _ _ _ _ _ O') in O.
  - destruct (opens_work _ _ _ _ _ _ O) as (o & St & P & _), (opens_work _ _ _ _ _ _ O') as (o' & St' & P' & _).
    destruct (asks_unique _ _ _ _ _ _ (st_asks _ _ _ _ _ _ St) (st_asks _ _ _ _ _ _ St')) as [-> ->].
    destruct (prelude_one _ _ _ _ _ _ P P') as [-> ->]. auto.
Qed.

Lemma opens_by_running s argv said w : preface (main 0 s argv) = (said, Some w) -> opens s argv said (Over w).
Proof.
  intros E. destruct (opens_exists s argv) as (said' & e & O). destruct e as [w'|ws fs c].
  - rewrite (opens_over _ _ _ _ O 0), preface_told in E. cbn [preface fst snd] in E. rewrite app_nil_r in E. now injection E as -> ->.
  - destruct (opens_work _ _ _ _ _ _ O) as (o & St & _ & E'). rewrite (E' 0), preface_told in E.
    rewrite (work_preface _ _ _ _ (st_files _ _ _ _ _ _ St)) in E. discriminate.
Qed.

(** A file named on the command line. *)
Lemma named_line env path bytes said w : e_files env path = Contents bytes -> configured env (Some path) said (Gives_up w) ->
  Forall (fun x => fst x = Stderr) said ->
  w = StopUB ReadPastEnd \/
  exists before after text line, bytes = before ++ text ++ after /\ in_decimal (1 + newlines before) line /\
    said = syntax_error path line text.
Proof.
  intros B C F. inversion C as [p N|p said0 e N R|]; subst; [congruence|].
  inversion R as [|n p ps said1 e M R'|n p ps U|n p ps bytes' said1 w' B' R'|n p ps bytes' said1 m said' e B' R' R'']; subst; try congruence.
  - rewrite B in B'. injection B' as <-. exact (token_line _ _ _ _ R' F).
  - inversion R''.
Qed.
