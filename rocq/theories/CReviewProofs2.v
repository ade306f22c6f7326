(** * Proofs about choosing a sequence and loading its tables in memory *)

From Verif Require Import Base BaseFacts Stdio Table Filter Spoof ConfigSpec ConfigLex ConfigParse ConfigLoad ConfigLoadSpec Prog Warnings Startup
  Mem MemSpec MemFacts CFileProofs Words WordsSpec WordsFacts CTableProofs CTableProofs2 FilesSpec CConfig LinkedSpec CConfigProofs
  CConfigProofs2 CConfigProofs5 CConfigProofs7 CLoad CLoadSpec CLoadProofs4 CLoadProofs5 CReview CReviewSpec CReviewProofs.

Local Open Scope nat_scope.

(** ** Files have filters of known kinds *)

Definition known_kind (c : cleaner) : Prop := forall v, c <> F_unknown v.

Definition known_state (p : pstate) : Prop :=
  match p with
  | P_simple c | P_method c | P_options c | P_table c _ => known_kind c
  | P_option f | P_option_eol f => familiar f
  | _ => True
  end.

Definition known_sequences (qs : list sequence_t) : Prop := Forall (fun q => Forall familiar (s_filters q)) qs.

Lemma put_known name fs file qs : Forall familiar fs -> known_sequences qs -> known_sequences (put_sequence name fs file qs).
Proof.
  intros F K. induction K as [|q qs Q K IH]; cbn [put_sequence]; [repeat constructor; exact F|]. destruct (str_eqb (s_name q) name); constructor; auto.
Qed.

Lemma step_known filename p s t p' s' : parse_step filename p s t = Some (p', s') -> known_state p -> Forall familiar (c_filters s) -> known_sequences (c_sequences s) ->
  known_state p' /\ Forall familiar (c_filters s') /\ known_sequences (c_sequences s').
Proof.
  assert (App : forall f, familiar f -> Forall familiar (c_filters s) -> Forall familiar (c_filters (cf_append_filter f s))) by (intros f Ff Fs; cbn; apply Forall_app; auto).
  destruct p, t; cbn [parse_step string_token]; unfold method_state; try discriminate;
    repeat match goal with
    | |- context[match ?x with _ => _ end] => is_var x; destruct x; try discriminate
    | |- context[match ?x with _ => _ end] => destruct x; try discriminate
    end;
    intros E K Fs Ks; try discriminate; injection E as <- <-; splits; auto; try exact I; try exact K; try (intros v; discriminate); try (apply App; auto; exact K); try (now apply put_known); try constructor.
Qed.

Lemma yyparse_known fuel filename : forall p s line input c l, snd (yyparse_says fuel filename p s line input) = Ok (c, l) ->
  known_state p -> Forall familiar (c_filters s) -> known_sequences (c_sequences s) -> known_sequences (c_sequences c).
Proof.
  induction fuel as [|fuel IH]; intros p s line input c l.
  - cbn [yyparse_says]. destruct p; cbn; try discriminate. intros E. injection E as <- <-. auto.
  - destruct input as [|b input].
    + cbn [yyparse_says]. destruct p; cbn; try discriminate. intros E. injection E as <- <-. auto.
    + cbn [yyparse_says]. destruct (lex_round_says (b :: input)) as [[[[[printed t] text] nl] rest]| |]; cbn [quietly tbind]; try discriminate.
      assert (X : forall (m : talk (cf_state * N)), snd (let% _ := print_out printed in m) = snd m) by (intros [o r]; destruct printed; reflexivity).
      match goal with |- context[let% _ := print_out printed in ?m] => specialize (X m) end.
      match goal with |- context[tbind (print_out printed) ?k] => destruct (tbind (print_out printed) k) as [o r] end. cbn [snd fst] in *. rewrite X. clear X.
      destruct t as [t|].
      * destruct (parse_step filename p s t) as [[p' s']|] eqn:E; [|cbn; discriminate]. intros F K1 K2 K3. destruct (step_known _ _ _ _ _ _ E K1 K2 K3) as (K1' & K2' & K3'). exact (IH _ _ _ _ _ _ F K1' K2' K3').
      * intros F. exact (IH _ _ _ _ _ _ F).
Qed.

Definition known_result (r : talk (option config_t * N)) : Prop := forall c l, snd r = Ok (Some c, l) -> known_sequences (cf_sequences c).

Lemma parse_known files path line pc : (forall c, pc = Some c -> known_sequences (cf_sequences c)) -> known_result (parse_config_file_says files path line pc).
Proof.
  intros K c l. unfold parse_config_file_says. destruct (files path) as [| |contents].
  - cbn. intros E. injection E as -> <-. auto.
  - cbn. discriminate.
  - match goal with |- context[tbind ?m _] => destruct m as [o [[s' l']| |]] eqn:E end; cbn; try discriminate. intros F. injection F as <- <-. cbn [cf_sequences].
    match type of E with yyparse_says ?a ?b ?c0 ?d ?e ?f = _ => pose proof (yyparse_known a b c0 d e f s' l') as Y end. rewrite E in Y. cbn [snd] in Y.
    apply Y; [reflexivity|exact I|constructor|]. cbn [c_sequences]. destruct pc as [c|]; [now apply K|constructor].
Qed.

Definition known_config (r : talk config_t) : Prop := forall c, snd r = Ok c -> known_sequences (cf_sequences c).
Definition known_option (c : option config_t) : Prop := forall c', c = Some c' -> known_sequences (cf_sequences c').

Lemma known_bind (m : talk (option config_t * N)) k : known_result m -> (forall c l, known_option c -> known_config (k (c, l))) -> known_config (tbind m k).
Proof.
  intros M K c. destruct m as [o [[c0 l0]| |]]; cbn; try discriminate. specialize (K c0 l0). intros E. apply (K ltac:(intros c' ->; exact (M _ _ eq_refl)) c).
  now destruct (k (c0, l0)) as [o' r'].
Qed.

Lemma short_known files path line pc : (forall c, pc = Some c -> known_sequences (cf_sequences c)) -> known_result (parse_if_short_says files path line pc).
Proof. intros K. unfold parse_if_short_says. destruct (_ <? _)%N; [now apply parse_known|]. intros c l E. cbn in E. injection E as -> <-. auto. Qed.

Lemma else_known files path line pc : (forall c, pc = Some c -> known_sequences (cf_sequences c)) -> known_result (or_else_says files path line pc).
Proof. intros K. unfold or_else_says. destruct pc as [c0|]; [|apply parse_known; discriminate]. intros c l E. cbn in E. injection E as <- <-. auto. Qed.

Lemma done_known c0 l0 : (forall c, c0 = Some c -> known_sequences (cf_sequences c)) -> known_result (done (c0, l0)).
Proof. intros K c l E. cbn in E. injection E as -> <-. auto. Qed.

Lemma spoof_known : known_sequences (cf_sequences spoof_config_file).
Proof.
  assert (E : forallb (fun q => forallb (fun f => match f_cleaner f with F_unknown _ => false | _ => true end) (s_filters q)) (cf_sequences spoof_config_file) = true) by (vm_compute; reflexivity).
  apply Forall_forall. intros q I. rewrite forallb_forall in E. specialize (E q I). apply Forall_forall. intros f J. rewrite forallb_forall in E. specialize (E f J). intros v Ev. now rewrite Ev in E.
Qed.

Theorem load_known env file c : snd (config_file_load_says env file) = Ok c -> known_sequences (cf_sequences c).
Proof.
  unfold config_file_load_says. destruct file as [path|].
  - pose proof (parse_known (e_files env) path 1%N None ltac:(discriminate)) as K. destruct (parse_config_file_says (e_files env) path 1 None) as [o [[[c0|] l0]| |]]; cbn; try discriminate.
    intros E. injection E as <-. exact (K _ _ eq_refl).
  - revert c. change (forall c, snd ?r = Ok c -> known_sequences (cf_sequences c)) with (known_config r).
    apply known_bind; [destruct (e_sysconfdir env); [apply short_known; discriminate|apply done_known; discriminate]|]. intros c1 l1 K1. cbv beta iota.
    apply known_bind; [now apply else_known|]. intros c2 l2 K2. cbv beta iota.
    apply known_bind; [now apply else_known|]. intros c3 l3 K3. cbv beta iota.
    apply known_bind; [destruct (e_getenv env (bs "HOME")); [now apply short_known|now apply done_known]|]. intros c4 l4 K4. cbv beta iota.
    apply known_bind; [destruct (e_getenv env (bs "XDG_CONFIG_HOME")); [now apply short_known|now apply done_known]|]. intros c5 l5 K5. cbv beta iota.
    destruct c5 as [c5|]; intros c E; cbn [done snd quietly] in E; [injection E as <-; exact (K5 _ eq_refl)|]. assert (Es : spoof_config_file = c) by congruence. rewrite <- Es. exact spoof_known.
Qed.

(** ** The sequence *)

Lemma unlike_find nm qs : unlike nm qs -> find (fun s => str_eqb (s_name s) nm) qs = None.
Proof. induction qs as [|q qs IH]; intros U; cbn; [reflexivity|]. rewrite (U q) by now left. apply IH. intros x I. apply U. now right. Qed.

Lemma find_among nm qs q qs' : unlike nm qs -> str_eqb (s_name q) nm = true -> find (fun s => str_eqb (s_name s) nm) (qs ++ q :: qs') = Some q.
Proof. induction qs as [|x qs IH]; intros U E; cbn; [now rewrite E|]. rewrite (U x) by now left. apply IH; auto. intros y I. apply U. now right. Qed.

Definition picks (ps : list ptr) (qs : list sequence_t) (w : ptr) (q : sequence_t) : Prop :=
  exists ps1 ps2 qs1 qs2, ps = ps1 ++ w :: ps2 /\ qs = qs1 ++ q :: qs2 /\ length ps1 = length qs1.

Theorem choose_in_memory {al : allocator} literal s ps qs own fs name nm : sequences_at s ps qs None own fs -> NoDup own -> cstr_at (s_heap s) (literal (bs "default")) (bs "default") ->
  text_in (s_heap s) name nm ->
  exists which, c_sequence_choose_default literal (first ps None) name s = done (which, s) /\
    match sequence_choose_default qs nm, which with
    | None, None => True
    | Some q, Some w => picks ps qs w q
    | _, _ => False
    end.
Proof.
  intros A ND D N. unfold c_sequence_choose_default, sequence_choose_default.
  set (p := match name with Some name => name | None => literal (bs "default") end). set (wanted := match nm with Some n => n | None => bs "default" end).
  assert (C : cstr_at (s_heap s) p wanted) by (unfold p, wanted; destruct name, nm; cbn in N; easy).
  destruct (find_rounds s p wanted C ps qs own fs (S (heap_size (s_heap s))) A) as (found & E & X); [pose proof (sequences_room _ _ _ _ _ _ A ND); lia|].
  change (wrounds (S (heap_size (s_heap s))) ?b ?i s) with (wwhile b i s) in E. step E. destruct found as [w|].
  - destruct X as (ps1 & ps2 & qs1 & q & qs2 & E1 & E2 & L & U & Q). exists (Some w). split; [reflexivity|]. rewrite E2, (find_among _ _ _ _ U Q). exists ps1, ps2, qs1, qs2. now rewrite E1.
  - rewrite (unlike_find _ _ X). destruct name as [name|], nm as [nm|]; cbn in N; try easy.
    + exists None. auto.
    + exists (first ps None). split; [reflexivity|]. destruct ps as [|p0 ps], qs as [|q qs]; cbn [sequences_at first] in *; try easy. exists [], ps, [], qs. auto.
Qed.

Lemma sequences_pick s ps qs w q own fs : sequences_at s ps qs None own fs -> picks ps qs w q -> NoDup own ->
  exists next name source fps fown, content s w [Adr next; Adr (Some name); Adr (first fps None); Adr source] /\
    string_in (s_heap s) (Some name) (Some (s_name q)) /\ string_in (s_heap s) source (s_source q) /\ filters_at s fps (s_filters q) None fown /\ In fown fs /\
    NoDup (p_block w :: block_list [Some name; source]) /\ forall b, In b (p_block w :: block_list [Some name; source]) -> In b own.
Proof.
  intros A (ps1 & ps2 & qs1 & qs2 & -> & -> & L). revert qs1 own fs L A. induction ps1 as [|p ps1 IH]; intros [|x qs1] own fs L; try discriminate L; cbn [app sequences_at].
  - intros (name & source & fps & fown & rest & frest & C & N & S & F & -> & -> & _) ND. exists (first ps2 None), name, source, fps, fown. splits; auto; [now left| |].
    + rewrite app_comm_cons in ND. exact (NoDup_l _ _ ND).
    + intros b I. rewrite app_comm_cons. apply in_app_iff. now left.
  - intros (name & source & fps & fown & rest & frest & C & N & S & F & -> & -> & A) ND. injection L as L. rewrite app_comm_cons in ND.
    destruct (IH _ _ _ L A (NoDup_r _ _ ND)) as (next & n' & src' & fps' & fown' & C' & N' & S' & F' & I' & ND' & Inc).
    exists next, n', src', fps', fown'. splits; auto; [now right|]. intros b I. rewrite app_comm_cons. apply in_app_iff. right. auto.
Qed.

Section prepare.

Context {al : allocator} (Lal : limited al).
Context (literal : str -> ptr) (static : static_table -> ptr) (denied_size : str -> nat) (sys : system).
Context (Dec : decent sys denied_size).

Theorem prepare_ok (R R' : heap -> N -> Prop) s file q name nm : statics_in s static [] -> literals_in (s_heap s) literal review_literals -> text_in (s_heap s) name nm ->
  follows R R' (fun c p s' => exists own lost, loaded_at s' p c own /\ evolves [] own lost s s') (config_file_load_says (m_env sys) file) (c_config_file_load literal (m_env sys) q s) ->
  follows (fun h n => R h n \/ once_loaded s h n) R' (prepares s) (prepare_says sys file nm) (c_prepare literal static denied_size sys q name s).
Proof.
  intros St Li Nm F. unfold prepare_says, c_prepare. apply follows_with in F. apply (follows_weaken R R' (fun h n => R h n \/ once_loaded s h n) R' _ _ _ _) with (2 := fun h n X => or_introl X) (3 := fun h n X => X) (4 := fun b a s' X => X) in F.
  eapply follows_bind; [exact F|]. clear F. intros c pc s1 ((own & lost & L1 & Ev) & Ok1). cbv beta in *. apply load_known in Ok1.
  pose proof L1 as (cown & fss & (ps & ignore & sown & iown & Cc & A & G & Ec) & ND & NDc & NDf & Ap & Iff).
  step (ptr_at_ok s1 pc _ 0 _ Cc eq_refl : ptr_at pc CF_sequences s1 = _).
  assert (Keep : forall p x, cstr_at (s_heap s) p x -> cstr_at (s_heap s1) p x) by (intros p x C; apply (evolves_keeps _ _ _ _ _ _ _ Ev C); intros []).
  assert (Li1 : literals_in (s_heap s1) literal review_literals) by (intros x I; apply Keep, Li, I).
  assert (Nm1 : text_in (s_heap s1) name nm) by (destruct name, nm; cbn in *; auto).
  assert (NDs : NoDup (sown ++ iown)) by (rewrite Ec in NDc; now apply NoDup_cons_iff in NDc).
  assert (New : forall b, In b (cown ++ concat fss) -> length (s_heap s) <= b).
  { intros b I. apply Iff in I. destruct Ev as (_ & E & _). destruct (E b I) as [[]|]; auto. }
  destruct (choose_in_memory literal s1 ps (cf_sequences c) sown fss name nm A (NoDup_l _ _ NDs) (Li1 _ ltac:(left; reflexivity)) Nm1) as (which & E & X). step E. clear E.
  destruct (sequence_choose_default (cf_sequences c) nm) as [sq|], which as [w|]; try easy; [|now apply follows_exit].
  assert (Fam : Forall familiar (s_filters sq)).
  { destruct X as (? & ? & ? & ? & _ & E & _). rewrite E in Ok1. apply Forall_app in Ok1 as (_ & Ok1). now apply Forall_cons_iff in Ok1. }
  destruct (sequences_pick _ _ _ _ _ _ _ A X (NoDup_l _ _ NDs)) as (next & n & src & fps & fown & Cw & Hn & Hs & Fl & If & NDw & Inc).
  assert (Ifc : forall b, In b fown -> In b (concat fss)) by (intros b I; apply in_concat; eauto).
  assert (Isc : forall b, In b sown -> In b cown) by (intros b I; rewrite Ec; right; apply in_app_iff; now left).
  assert (Iic : forall b, In b iown -> In b cown) by (intros b I; rewrite Ec; right; apply in_app_iff; now right).
  assert (Ipc : In (p_block pc) cown) by (rewrite Ec; now left).
  assert (St1 : statics_in s1 static fown).
  { intros x. destruct (St x) as (cs & blocks & T & _). exists cs, blocks. split.
    - apply (table_seen_same s); [|exact T]. intros b I. pose proof (seen_old _ _ _ _ _ _ T I). destruct Ev as (E & _). apply E; auto.
    - intros b I J. pose proof (seen_old _ _ _ _ _ _ T I). apply Ifc in J. pose proof (New b ltac:(apply in_app_iff; now right)). lia. }
  rewrite Forall_forall in NDf.
  assert (Lh : length (s_heap s) <= length (s_heap s1)) by apply Ev.
  pose proof (review_in_memory Lal literal static denied_size sys Dec s1 w (Adr next) (Adr (Some n)) (Adr src) fps (s_filters sq) fown Cw Fl (NDf _ If) Fam St1 Li1) as Rv.
  assert (Ps : sequence_review_says (e_datadir (m_env sys)) (table_at_says sys) sq =
               let% fs := review_filters_says (e_datadir (m_env sys)) (table_at_says sys) (s_filters sq) in done (mkSequence (s_name sq) fs (s_source sq))) by reflexivity.
  eapply (follows_bind _ _ (fun sq' _ s2 => exists fs', reviews s1 fps fown fs' s2 /\ sq' = mkSequence (s_name sq) fs' (s_source sq))).
  - rewrite Ps. eapply follows_map; [eapply follows_weaken; [exact Rv| |intros h k []|intros b a s2 Y; exact Y]|].
    + intros h k Bh. right. exists s1, pc, c, own, lost. auto.
    + intros fs' [] s2 Y. exists fs'. split; [exact Y|reflexivity].
  - intros sq' [] s2 (fs' & (M & W & own' & Rd & ND' & On) & ->). apply follows_ret. cbv beta iota zeta.
    assert (T : touches fown s1 s2) by now split.
    assert (Oc : forall b, In b cown -> b < length (s_heap s1)).
    { intros b I. apply there_old. rewrite Ec in I. destruct I as [<-|I]; [exact (content_there _ _ _ Cc)|]. apply in_app_iff in I as [I|I].
      - apply (sequences_there _ _ _ _ _ _ A), in_app_iff; now left.
      - exact (ignored_there _ _ _ _ G _ I). }
    assert (Sm : forall b, In b cown -> same_at s1 s2 b).
    { intros b I. apply (touches_at _ _ _ _ T (Oc b I)). intros J. exact (Ap b I (Ifc b J)). }
    assert (Onew : forall b, In b cown -> ~ In b own').
    { intros b I J. destruct (On b J) as [K|K]; [exact (Ap b I (Ifc b K))|]. apply Oc in I. lia. }
    exists ignore, iown, (p_block w :: block_list [Some n; src] ++ own'). cbn [fst snd cf_ignore]. splits.
    + pose proof (content_at s1 s2 pc _ (Sm _ Ipc) Cc) as (O & Fo & Y). split; [exact O|]. split; [|exact Y]. inversion Fo as [|? ? ? ? _ Fo']; subst. constructor; [exact I|exact Fo'].
    + apply (ignored_same s1); [|exact G]. intros b I. apply Sm. auto.
    + exists next, n, src, fps, own'. cbn [s_name s_source s_filters]. splits; auto.
      * apply (content_at s1); [|exact Cw]. apply Sm, Isc, Inc. now left.
      * exact (touches_string _ _ _ _ _ T Hn).
      * exact (touches_string _ _ _ _ _ T Hs).
      * rewrite app_comm_cons. apply NoDup_apart_app; auto.
    + rewrite Ec in NDc. apply NoDup_cons_iff in NDc as (Nc & NDc). constructor; [|exact (NoDup_r _ _ NDc)]. intros I. apply Nc, in_app_iff. now right.
    + intros b I J. rewrite app_comm_cons in J. assert (Icb : In b cown) by (destruct I as [<-|I]; auto). apply in_app_iff in J as [J|J]; [|exact (Onew _ Icb J)].
      apply Inc in J. destruct I as [<-|I].
      * rewrite Ec in NDc. apply NoDup_cons_iff in NDc as (Nc & _). apply Nc, in_app_iff. now left.
      * exact (NoDup_apart _ _ _ NDs J I).
    + intros b [<-|I]; [apply New, in_app_iff; now left|]. apply in_app_iff in I as [I|I]; [apply New, in_app_iff; left; auto|]. rewrite app_comm_cons in I. apply in_app_iff in I as [I|I]; [apply New, in_app_iff; left; auto|].
      destruct (On b I) as [K|K]; [apply New, in_app_iff; right; auto|lia].
    + intros b Lb. destruct Ev as (E & _). destruct (E b Lb ltac:(intros [])) as (E1 & E2).
      destruct (touches_at _ _ _ b T ltac:(lia)) as (E3 & E4); [|split; congruence]. intros J. apply Ifc in J. pose proof (New b ltac:(apply in_app_iff; now right)). lia.
Qed.

Theorem prepare_in_memory s name nm : statics_in s static [] -> literals_in (s_heap s) literal review_literals -> literals_in (s_heap s) literal the_literals -> orderly (m_env sys) ->
  text_in (s_heap s) name nm ->
  follows (fun h n => within s (loading_room (m_env sys)) h n \/ once_loaded s h n)
    (fun h n => within s (loading_room (m_env sys)) h n /\ exists path, In path (candidates (m_env sys)) /\ for_text (contents_of (e_files (m_env sys) path)) n)
    (prepares s) (prepare_says sys None nm) (c_prepare literal static denied_size sys None name s).
Proof.
  intros St Li L0 Ord Nm. eapply follows_weaken; [apply prepare_ok with (R := RR s (m_env sys)) (R' := RR' s (m_env sys)); auto|auto| |auto].
  - eapply follows_weaken; [exact (search_ok literal s (m_env sys) L0 Ord)|auto|auto|]. intros c p s' (lost & (own & L & E & _) & _). eauto.
  - intros h n (W & path & I & _ & T). eauto.
Qed.

Theorem prepare_named_in_memory s q path name nm : statics_in s static [] -> literals_in (s_heap s) literal review_literals -> cstr_at (s_heap s) q path ->
  moderate path (contents_of (e_files (m_env sys) path)) [] -> text_in (s_heap s) name nm ->
  follows (fun h n => within s (length path + 1 + reading_room path (contents_of (e_files (m_env sys) path)) []) h n \/ once_loaded s h n) (fun _ n => for_text (contents_of (e_files (m_env sys) path)) n) (prepares s) (prepare_says sys (Some path) nm) (c_prepare literal static denied_size sys (Some q) name s).
Proof.
  intros St Li Cq Mo Nm. eapply follows_weaken; [eapply prepare_ok; auto|intros h n X; exact X| |auto].
  - eapply follows_weaken; [exact (named_ok literal s (m_env sys) q path Cq Mo)|intros h n X; exact X|intros h n X; exact X|]. intros c p s' (own & L & E & _). eauto.
  - intros h n (_ & T). exact T.
Qed.

End prepare.
