(** * The whole program in memory does what it does on lists *)

From Verif Require Import Base BaseFacts Stdio Table ParseTable Filter Spoof Filelist FilelistProofs FileSpec FileProofs Prog ProgFacts Warnings WarningsProofs File Inline ConfigParse ConfigLoad Options OptionsSpec OptionsProofs StartProofs StartOptions
  Startup Main Generated GeneratedProofs MainSpec MainProofs StartSpec Mem MemFacts MemSpec CFilters CFiltersProofs CFile CSim CFileProofs CArgumentsProofs CInlineProofs CMain StopProofs.

Local Open Scope nat_scope.

Section proofs.

Context {al : allocator}.
Hypothesis Lim : limited al.

Lemma sim_alike {A B C} (R : list event -> A * heap -> B -> Prop) tr (m : talk C) (k : C -> cprog A) k' h :
  (forall a, snd m = Ok a -> sim R (tr ++ map heard (fst m)) (k a h) (k' a)) ->
  sim R tr (cbind (alike (talking m)) k h) (pbind (talking m) k').
Proof.
  destruct m as [l r]. cbn [fst snd]. intros H. unfold cbind, alike, talking. cbn [fst snd]. revert tr H.
  induction l as [|[out text] l IH]; intros tr H; cbn [told pbind map] in *.
  - rewrite app_nil_r in H. destruct r as [a|w|n]; cbn [lift pbind]; [exact (H a eq_refl)|apply sim_stop|apply sim_stop].
  - apply sim_call. intros [] _. apply IH. intros a E. rewrite <- app_assoc. exact (H a E).
Qed.

Lemma sim_alike_lift {A B C} (R : list event -> A * heap -> B -> Prop) tr (r : res C) (k : C -> cprog A) k' h :
  (forall a, r = Ok a -> sim R tr (k a h) (k' a)) -> sim R tr (cbind (alike (lift r)) k h) (pbind (lift r) k').
Proof. intros H. destruct r as [a|w|n]; [exact (H a eq_refl)|apply sim_stop|apply sim_stop]. Qed.

(** The copies of the names. *)
Definition copied (tr0 : list event) (h : heap) (names : list str) (tr : list event) (c : list ptr * heap) (_ : unit) : Prop :=
  tr = tr0 /\ bounded (snd c) /\ exists a, snd c = h ++ a /\ Forall2 (cstr_at (snd c)) (fst c) names /\ live a = length names.

Lemma copies_sim tr : forall names (h : heap), bounded h -> Forall nonul names -> Forall fits names ->
  sim (copied tr h names) tr (c_copies names h) (Ret tt).
Proof.
  induction names as [|f names IH]; intros h Bd N F; cbn [c_copies].
  - apply sim_ret. split; [reflexivity|]. split; [exact Bd|]. exists []. cbn [fst snd]. rewrite app_nil_r. splits; auto.
  - inversion N as [|? ? Nf N']. inversion F as [|? ? Ff F']. subst.
    apply (sim_strdup_of _ Lim); [exact Ff|]. intros Bd1.
    eapply sim_then; [apply (IH _ Bd1 N' F')|]. intros tr' [ps h'] [] (-> & Bd2 & a & E & Fa & La). cbn [fst snd] in *. subst h'.
    apply sim_ret. split; [reflexivity|]. split; [exact Bd2|]. exists (Some (map Some f ++ [Some NUL]) :: a). cbn [fst snd]. rewrite <- app_assoc in *. splits; auto.
    + constructor; auto. change (Some (map Some f ++ [Some NUL]) :: a) with ([Some (map Some f ++ [Some NUL])] ++ a). rewrite app_assoc. apply cstr_old. now apply cstr_string.
    + rewrite live_cons. cbn [is_live length]. lia.
Qed.

(** The files are arguments. *)
Lemma asks_named posix args ws fs : asks posix args ws fs -> incl fs args.
Proof.
  induction 1; intros x Hx; try (now right; apply IHasks); try (right; now apply H).
  - exact Hx.
  - now right.
  - destruct Hx as [->|Hx]; [now left|right; now apply IHasks].
  - exact Hx.
  - right. right. now apply IHasks.
Qed.

Lemma options_files pf getenv pkg argv o : snd (parse_options_says pf getenv pkg argv) = Ok o -> o_list_sequences o = false ->
  exists ws fs l, asks (posixly getenv) (tl argv) ws fs /\ o_files o = Some l /\ good l /\ items (Some l) = fs /\ fl_ptr l = 0 /\
    (o_is_inline_mode o = true <-> as_inline argv \/ In Inline_mode ws).
Proof.
  intros E L.
  destruct (asks_or_mistake (posixly getenv) (length (tl argv)) (tl argv) (le_n _)) as [(ws & fs & A)|(ws & M)].
  2:{ exfalso. destruct (parting_split ws) as [N|(b & w & a & -> & N & P)].
      - pose proof (options_mistake pf getenv pkg argv ws M N) as X. apply options_say in X. congruence.
      - pose proof (options_mistake_parting pf getenv pkg argv _ _ _ M N P) as X. apply options_say in X. congruence. }
  destruct (parting_split ws) as [N|(b & w & a & -> & N & P)].
  2:{ pose proof (options_parting pf getenv pkg argv _ _ _ _ A N P) as X. apply options_say in X. congruence. }
  destruct (options_read pf getenv pkg argv ws fs A N) as (o' & G & Pf & E' & F1 & F2).
  assert (o' = o) as ->.
  { destruct (o_list_sequences o'); [apply options_say in E'; congruence|]. destruct fs; [destruct (o_is_inline_mode o')|]; apply options_say in E'; congruence. }
  destruct (F2 L) as (l & Ef & Gl & Il & Pl). exists ws, fs, l. splits; auto. rewrite (g_inline _ _ _ _ G), inline_bin_called. reflexivity.
Qed.

(** What is left in memory at the end. *)
Definition main_done (posix : bool) (argv : list str) (tr : list event) (c : N * heap) (n : N) : Prop :=
  fst c = n /\ exists ws fs, asks posix (tl argv) ws fs /\
    ((~ (as_inline argv \/ In Inline_mode ws) /\
       length fs + opened_in tr <= live (snd c) <= length fs + opened_in tr + 2 * asked_in tr) \/
     ((as_inline argv \/ In Inline_mode ws) /\
       length fs + read_in tr <= live (snd c) <= length fs + read_in tr + dotted_in tr)).

Lemma heard_opened l : opened_in (map heard l) = 0.
Proof. induction l as [|[out text] l IH]; [reflexivity|]. exact IH. Qed.

Lemma heard_asked l : asked_in (map heard l) = 0.
Proof. induction l as [|[out text] l IH]; [reflexivity|]. exact IH. Qed.

Lemma heard_read l : read_in (map heard l) = 0.
Proof. induction l as [|[out text] l IH]; [reflexivity|]. exact IH. Qed.

Lemma main_sim arr fuel s argv : arrives arr (m_env s) -> Forall nonul argv -> Forall fits argv ->
  sim (main_done (posix_env s) argv) [] (c_main arr fuel s argv []) (main fuel s argv).
Proof.
  intros Ar Na Fa. unfold c_main, main. cbv zeta. apply sim_alike. intros o Eo. rewrite (load_generated arr (m_env s) _ Ar). apply sim_alike. intros c Ec. apply sim_alike_lift. intros ign Ei.
  destruct (o_list_sequences o) eqn:L.
  { apply sim_alike_lift. intros text _. apply sim_call. intros [] _. apply sim_stop. }
  destruct (sequence_choose_default (cf_sequences c) (o_sequence_name o)) as [s0|].
  2:{ apply sim_call. intros [] _. apply sim_stop. }
  apply sim_alike. intros s1 _. set (tr := _ ++ map heard _).
  assert (T : opened_in tr = 0 /\ asked_in tr = 0 /\ read_in tr = 0).
  { unfold tr. rewrite !opened_app, !asked_app, !read_app, !heard_opened, !heard_asked, !heard_read. cbn. auto. }
  clearbody tr. destruct T as (T1 & T2 & T3).
  destruct (options_files _ _ _ _ _ Eo L) as (ws & fs & l & A & Ef & Gl & Il & Pl & In_). rewrite <- posix_env_posixly in A.
  cbn [with_sequence o_files o_is_inline_mode]. rewrite Ef. cbn [filelist_count]. rewrite (all_files_items l Gl Pl), Il. cbn [lift pbind].
  apply sim_skip. set (o1 := with_sequence (Some s1) ign o). pose proof (good_length l Gl) as Lf. rewrite Il in Lf.
  assert (Sub : incl fs argv) by (intros x Hx; apply (asks_named _ _ _ _ A) in Hx; destruct argv; [exact Hx|now right]).
  change (lift ?x) with (lift x).
  eapply (sim_bind _ _ tr _ (Ret tt) _ (fun _ => _)); [apply (copies_sim tr fs []); [reflexivity| |]; rewrite Forall_forall in *; auto|].
  intros tr1 [ptrs h1] [] (-> & Bd & a & E & Fp & La). cbn [fst snd app] in *. subst h1.
  destruct (o_is_inline_mode o) eqn:Im; cbn [negb].
  - assert (I1 : as_inline argv \/ In Inline_mode ws) by now apply In_.
    assert (Fin : forall tr2 h2 , inline_done tr a tr2 (tt, h2) tt -> main_done (posix_env s) argv tr2 (EXIT_SUCCESS, h2) EXIT_SUCCESS).
    { intros tr2 h2 (Bd2 & b & E2 & L1 & L2). cbn [snd] in E2. subst h2. split; [reflexivity|]. exists ws, fs. split; [exact A|]. right. split; [exact I1|]. cbn [snd]. rewrite live_app. lia. }
    destruct (0 <? fl_count l).
    + eapply sim_bind; [exact (inline_arguments_sim Lim o1 fs ptrs tr a Fp Bd)|]. intros tr2 [[] h2] [] D. apply sim_ret. now apply Fin.
    + eapply sim_bind; [exact (parse_inline_sim Lim tr a None None o1 I Bd)|]. intros tr2 [[] h2] [] D. apply sim_ret. now apply Fin.
  - eapply sim_bind; [exact (arguments_sim Lim fuel o1 fs ptrs tr a ign Fp Bd)|]. intros tr2 [x h2] r (Er & Bd2 & b & E2 & L1 & L2). cbn [fst snd] in *. subst.
    apply sim_ret. split; [reflexivity|]. exists ws, (items (Some l)). split; [exact A|]. left. split; [intros X; apply In_ in X; discriminate|]. cbn [snd]. rewrite live_app. lia.
Qed.

(** ** Functions on names *)

Lemma leaves_hands (h : heap) q r h' : leaves h q r h' -> hands_over 0 h q r h'.
Proof.
  intros (i & j & rest & -> & -> & N & _). exists (repeat None i), (Some (map Some r ++ Some NUL :: rest)), (repeat None j). splits; auto.
  - now rewrite app_length, repeat_length.
  - now exists rest.
  - now rewrite !live_nones.
Qed.

Lemma same_in_memory (h : heap) c m : same h c m -> in_memory h c m.
Proof.
  intros [[E H]|(o & o' & message & h0 & n & E & -> & Em)].
  - destruct c as [said c], m as [said' m]. cbn [fst snd] in *. subst said'. destruct c as [[[q|] h']|u|n], m as [[r|]|u'|n']; try contradiction.
    + apply im_name. now apply leaves_hands.
    + destruct H as [[n ->] _]. apply im_null. exists (repeat None n). split; [reflexivity|apply live_nones].
    + subst u'. apply im_undefined.
    + subst n'. apply im_exit.
  - destruct m as [said m]. cbn [fst] in Em. subst said. exact (im_memory h o o' m message h0 n E).
Qed.

Lemma filter_in_memory pf f (h : heap) p s : cstr_at h p s -> bounded h -> in_memory h (c_filter_run pf f (Some p) h) (filter_run_says pf f (Some s)).
Proof. intros C B. apply same_in_memory, filter_same; auto. eapply bounded_fits; eauto. Qed.

Lemma sequence_in_memory pf seq (h : heap) p s : cstr_at h p s -> bounded h -> in_memory h (c_sequence_run pf seq (Some p) h) (sequence_run_says pf seq (Some s)).
Proof. intros C B. apply same_in_memory, sequence_same; auto. eapply bounded_fits; eauto. Qed.

(** ** Executions *)

Lemma sim_far {A} (R : list event -> A * heap -> A -> Prop) tr p q : sim R tr p q -> (forall tr a b, R tr a b -> fst a = b) ->
  as_far p q \/ exists message h n, refusal_of h n = Some message /\ p = gives_up message.
Proof.
  intros H K. destruct H as [tr a b H|tr w|tr c k k' H|tr message h n q E].
  - left. apply K in H. destruct a. exact H.
  - now left.
  - now left.
  - right. eauto.
Qed.

Lemma main_runs {S} (step : S -> forall c, answer c -> S -> Prop) (interference : S -> S -> Prop) arr fuel sy argv s tr s' p' :
  arrives arr (m_env sy) -> Forall nonul argv -> Forall fits argv -> runs step interference (c_main arr fuel sy argv []) s tr s' p' -> Forall fair_event tr ->
  (exists q', runs step interference (main fuel sy argv) s tr s' q' /\
     (as_far p' q' \/ exists message h n, refusal_of h n = Some message /\ p' = gives_up message)) \/
  ended_without_memory step interference (main fuel sy argv) s tr s' p'.
Proof.
  intros Ar N F R Fa. destruct (sim_runs _ step interference [] _ _ (main_sim arr fuel sy argv Ar N F) _ _ _ _ R Fa) as [(q' & Rq & H)|H]; [left|right; exact H].
  exists q'. split; [exact Rq|]. eapply sim_far; [exact H|]. intros tr0 a b [E _]. exact E.
Qed.

Lemma main_runs_back {S} (step : S -> forall c, answer c -> S -> Prop) (interference : S -> S -> Prop) arr fuel sy argv s tr s' q' :
  arrives arr (m_env sy) -> Forall nonul argv -> Forall fits argv -> runs step interference (main fuel sy argv) s tr s' q' -> Forall fair_event tr ->
  (exists p', runs step interference (c_main arr fuel sy argv []) s tr s' p' /\
     (as_far p' q' \/ exists message h n, refusal_of h n = Some message /\ p' = gives_up message)) \/
  (exists before after message h n s1, tr = before ++ after /\ refusal_of h n = Some message /\
     runs step interference (c_main arr fuel sy argv []) s before s1 (gives_up message)).
Proof.
  intros Ar N F R Fa. destruct (sim_runs_back _ step interference [] _ _ (main_sim arr fuel sy argv Ar N F) _ _ _ _ R Fa) as [(p' & Rp & H)|(before & after & message & h & n & s1 & q1 & -> & E & Rp & _)].
  - left. exists p'. split; [exact Rp|]. eapply sim_far; [exact H|]. intros tr0 a b [E _]. exact E.
  - right. exists before, after, message, h, n, s1. auto.
Qed.

Lemma main_left {S} (step : S -> forall c, answer c -> S -> Prop) (interference : S -> S -> Prop) arr fuel sy argv s tr s' n h :
  arrives arr (m_env sy) -> Forall nonul argv -> Forall fits argv -> runs step interference (c_main arr fuel sy argv []) s tr s' (Ret (n, h)) -> Forall fair_event tr ->
  main_done (posix_env sy) argv tr (n, h) n.
Proof.
  intros Ar N F R Fa. destruct (sim_runs _ step interference [] _ _ (main_sim arr fuel sy argv Ar N F) _ _ _ _ R Fa) as [(q' & Rq & H)|(b & m & h0 & n0 & s1 & s2 & q' & _ & _ & E & _)]; [|discriminate].
  inversion H as [tr0 a b D| | |]; subst. pose proof D as D'. destruct D' as [E _]. cbn [fst] in E. subst b. exact D.
Qed.

Lemma file_left {S} (step : S -> forall c, answer c -> S -> Prop) (interference : S -> S -> Prop) o p name (h : heap) s tr s' q h' :
  cstr_at h p name -> bounded h -> runs step interference (c_parse_file p o h) s tr s' (Ret (q, h')) -> Forall fair_event tr ->
  exists r, runs step interference (parse_file name o) s tr s' (Ret r) /\ hands_over (lost_by_file o name) h q r h'.
Proof.
  intros C B R Fa. destruct (sim_runs _ step interference [] _ _ (parse_file_sim Lim [] h p name o C B) _ _ _ _ R Fa) as [(q' & Rq & H)|(b & m & h0 & n0 & s1 & s2 & q' & _ & _ & E & _)]; [|discriminate].
  inversion H as [tr0 a b [_ D]| | |]; subst. exists b. split; [exact Rq|exact D].
Qed.

Lemma dir_left {S} (step : S -> forall c, answer c -> S -> Prop) (interference : S -> S -> Prop) fuel o p name ign (h : heap) s tr s' r h' :
  cstr_at h p name -> bounded h -> runs step interference (c_parse_dir fuel o p ign h) s tr s' (Ret (r, h')) -> Forall fair_event tr ->
  exists lost, leaves_behind lost h h' /\ opened_in tr <= lost <= opened_in tr + asked_in tr.
Proof.
  intros C B R Fa. destruct (sim_runs _ step interference [] _ _ (proj1 (dir_sim Lim o fuel) [] h p name ign C B) _ _ _ _ R Fa) as [(q' & Rq & H)|(b & m & h0 & n0 & s1 & s2 & q' & _ & _ & E & _)]; [|discriminate].
  inversion H as [tr0 a b (E & _ & x & Eh & L)| | |]; subst. cbn [snd] in Eh. subst h'. exists (live x). split; [now exists x|]. revert L. unfold lost_between. change (opened_in []) with 0. change (asked_in []) with 0. cbn [app]. lia.
Qed.

Lemma inline_left {S} (step : S -> forall c, answer c -> S -> Prop) (interference : S -> S -> Prop) o p name (h : heap) s tr s' h' :
  cstr_at h p name -> bounded h -> runs step interference (c_parse_inline (Some p) o h) s tr s' (Ret (tt, h')) -> Forall fair_event tr ->
  exists lost, leaves_behind lost h h' /\ read_in tr <= lost <= read_in tr + dotted_in tr.
Proof.
  intros C B R Fa. destruct (sim_runs _ step interference [] _ _ (parse_inline_sim Lim [] h (Some p) (Some name) o C B) _ _ _ _ R Fa) as [(q' & Rq & H)|(b & m & h0 & n0 & s1 & s2 & q' & _ & _ & E & _)]; [|discriminate].
  inversion H as [tr0 a b (_ & x & Eh & L)| | |]; subst. cbn [snd] in Eh. subst h'. exists (live x). split; [now exists x|]. revert L. change (read_in []) with 0. change (dotted_in []) with 0. cbn [app]. lia.
Qed.

(** What stops it. *)
Lemma main_undefined {S} (step : S -> forall c, answer c -> S -> Prop) (interference : S -> S -> Prop) arr fuel sy argv s tr s' u :
  arrives arr (m_env sy) -> Forall nonul argv -> Forall fits argv -> runs step interference (c_main arr fuel sy argv []) s tr s' (Stop (StopUB u)) -> Forall fair_event tr ->
  (u = ReadPastEnd /\ exists said, opens sy argv said (Over (StopUB u)) /\ tr = map heard said) \/
  (exists ws fs o c, started sy argv ws fs o c /\ (u = BufferOverflow \/ u = BufferUnderread /\ o_is_inline_mode o = true)).
Proof.
  intros Ar N F R Fa. destruct (main_runs step interference _ _ _ _ _ _ _ _ Ar N F R Fa) as [(q' & Rq & [H|(m & h & n & _ & E)])|(b & m & h0 & n0 & s1 & s2 & q' & _ & _ & E & _)]; try discriminate.
  destruct q' as [b|w|c k]; cbn [as_far] in H; try contradiction. subst w. apply runs_trace in Rq. exact (main_stop _ _ _ _ _ Rq).
Qed.

End proofs.
