(** * Proofs about loading the configuration in memory *)

From Coq Require Import Permutation.
From Verif Require Import Base BaseFacts Stdio StdioFacts Filter Spoof ConfigSpec ConfigLex ConfigParse ConfigLoad ConfigLoadSpec Prog Warnings Startup
  Mem MemSpec MemFacts CFiltersProofs CFileProofs Words WordsSpec WordsFacts CTableProofs CTableProofs2 CFilelist FilesSpec CFilelistProofs CParseTable CParseTableProofs CConfig LinkedSpec CConfigProofs CConfigProofs2 CConfigProofs5
  CConfigProofs7 CLoad CLoadSpec CLoadProofs CLoadProofs2 CLoadProofs3.

Local Open Scope nat_scope.

(** ** The list of files grows with the files *)

Lemma step_ignores filename p s t p' s' : parse_step filename p s t = Some (p', s') -> length (c_ignore s') <= S (length (c_ignore s)).
Proof.
  destruct p, t; cbn [parse_step string_token]; try discriminate;
    repeat match goal with
    | |- context[match ?x with _ => _ end] => destruct x; try discriminate
    end;
    intros E; try discriminate; injection E as <- <-; cbn; rewrite ?app_length; cbn; try lia.
Qed.

Lemma yyparse_ignores fuel filename : forall p s line input c l, snd (yyparse_says fuel filename p s line input) = Ok (c, l) -> length (c_ignore c) <= length (c_ignore s) + fuel.
Proof.
  induction fuel as [|fuel IH]; intros p s line input c l.
  - cbn [yyparse_says]. destruct p; cbn; try discriminate. intros E. injection E as <- <-. lia.
  - destruct input as [|b input].
    + cbn [yyparse_says]. destruct p; cbn; try discriminate. intros E. injection E as <- <-. lia.
    + cbn [yyparse_says]. destruct (lex_round_says (b :: input)) as [[[[[printed t] text] nl] rest]| |]; cbn [quietly tbind]; try discriminate.
      assert (X : forall (m : talk (cf_state * N)), snd (let% _ := print_out printed in m) = snd m) by (intros [o r]; destruct printed; reflexivity).
      match goal with |- context[let% _ := print_out printed in ?m] => specialize (X m) end.
      match goal with |- context[tbind (print_out printed) ?k] => destruct (tbind (print_out printed) k) as [o r] end. cbn [snd fst] in *. rewrite X. clear X.
      destruct t as [t|].
      * destruct (parse_step filename p s t) as [[p' s']|] eqn:E; [|cbn; discriminate]. intros F. apply IH in F. apply step_ignores in E. lia.
      * intros F. apply IH in F. lia.
Qed.

Lemma parse_ignores files path line pc c l : snd (parse_config_file_says files path line pc) = Ok (c, l) -> length (ignored_of c) <= length (ignored_of pc) + file_length (files path).
Proof.
  unfold parse_config_file_says. destruct (files path) as [| |contents]; cbn [file_length].
  - cbn. intros E. injection E as <- <-. lia.
  - cbn. discriminate.
  - match goal with |- context[tbind ?m _] => destruct m as [o [[s' l']| |]] eqn:E end; cbn; try discriminate. intros F. injection F as <- <-. cbn [ignored_of cf_ignore].
    pose proof (yyparse_ignores (length contents) path P_top (mkCf (sequences_of pc) [] None (ignored_of pc)) line contents s' l') as Y. unfold sequences_of, ignored_of in *. rewrite E in Y. exact (Y eq_refl).
Qed.

Section load.

Context {al : allocator} (literal : str -> ptr) (s0 : store_t) (env : environment).
Context (Lits : literals_in (s_heap s0) literal the_literals) (Ord : orderly env).

Lemma follows_with {A B} (R R' : heap -> N -> Prop) (Q : B -> A -> store_t -> Prop) pure t : follows R R' Q pure t -> follows R R' (fun b a s => Q b a s /\ snd pure = Ok b) pure t.
Proof.
  intros F. destruct F.
  - eapply follows_done; [eassumption|]. rewrite H. auto.
  - now apply follows_exit.
  - now apply follows_ub.
  - eapply follows_refused; eauto.
  - eapply follows_unnoticed; eauto.
Qed.

Notation B := (length (s_heap s0)).
Notation need := (round_need (256 + total env) (total env)).
Notation files := (e_files env).
Definition for_candidate (n : N) : Prop := exists path, In path (candidates env) /\ files path <> NoFile /\ for_text (contents_of (files path)) n.
Definition RR (h : heap) (n : N) : Prop := within s0 (loading_room env) h n.
Definition RR' (h : heap) (n : N) : Prop := within s0 (loading_room env) h n /\ for_candidate n.
Definition nothing : Prop := forall p, In p (candidates env) -> files p = NoFile.

(** After [k] files with [t] bytes; the block [B] is for paths. *)
Definition searched (k t : nat) (b : option config_t * N) (a : option ptr * N * option ptr) (s : store_t) : Prop :=
  snd b = snd (fst a) /\
  exists own lost cells, results_at s (fst (fst a)) (fst b) own /\ ~ In B own /\ nth_error (s_heap s) B = Some (Some cells) /\ length cells = 256 /\
    evolves [] (B :: own) lost s0 s /\ heap_size (s_heap s) <= heap_size (s_heap s0) + 256 + k * 168 + t * need /\ length (ignored_of (fst b)) <= t /\
    (nothing -> fst b = None /\ lost = 0).

Definition length_of (path : str) : nat := length (contents_of (files path)).

Lemma file_length_of path : file_length (files path) = length_of path.
Proof. unfold length_of. now destruct (files path). Qed.

Lemma searched_more k t k' t' b a s : k <= k' -> t <= t' -> searched k t b a s -> searched k' t' b a s.
Proof.
  intros Lk Lt (E & own & lost & cells & R & N & Nc & Lc & Ev & Sz & Ig & No). split; [exact E|]. exists own, lost, cells. splits; auto; [|lia].
  assert (t * need <= t' * need) by (apply Nat.mul_le_mono_r; exact Lt). lia.
Qed.

Lemma evolves_keeps a b k s s' p x : evolves a b k s s' -> cstr_at (s_heap s) p x -> ~ In (p_block p) a -> cstr_at (s_heap s') p x.
Proof.
  intros E (cells & rest & Nc & X) N. exists cells, rest. split; [|exact X]. destruct E as (E & _). destruct (E (p_block p)) as (Eh & _); [|exact N|congruence].
  apply nth_error_Some. congruence.
Qed.

(** A file is read. *)
Lemma read_next k t c line pp name s filename path : k <= 4 -> searched k t (c, line) (pp, line, name) s -> In path (candidates env) -> length path <= 256 -> t + length_of path <= total env ->
  cstr_at (s_heap s) filename path -> p_block filename <= B ->
  follows RR RR' (searched (S k) (t + length_of path)) (parse_config_file_says files path line c) (c_parse_config_file files filename line name pp s).
Proof.
  intros Lk (_ & own & lost & cells & R & N & Nc & Lc & Ev & Sz & Ig & No) Ip Lp Lt Cf Bf. cbn [fst snd] in *. destruct Ord as (_ & O1 & O2).
  assert (Ow : forall b, In b own -> B < b).
  { intros b J. destruct Ev as (_ & E & _). destruct (E b (or_intror J)) as [[]|L]. destruct (Nat.eq_dec b B) as [->|]; [easy|lia]. }
  assert (D : files path = NoFile \/ files path <> NoFile) by (destruct (files path); auto; right; discriminate). destruct D as [Ef|Ef].
  - unfold parse_config_file_says, c_parse_config_file. rewrite Ef. rewrite (wbind_done _ _ _ _ _ (bytes_done _ _ _ _ (read_ok _ _ _ Cf))). rewrite Ef.
    replace (mkStore (s_heap s) (s_words s)) with s by now destruct s.
    eapply follows_done; [reflexivity|]. apply (searched_more k t); [lia|lia|]. split; [reflexivity|]. exists own, lost, cells. splits; auto.
  - assert (Nf : ~ In (p_block filename) own) by (intros J; apply Ow in J; lia).
    assert (Fn : file_need (files path) (256 + total env) (total env) = 168 + length_of path * need) by (unfold file_need, length_of; destruct (files path); cbn [contents_of length]; lia).
    pose proof (parse_file_ok files (256 + total env) (total env) filename path line name pp c s own Cf R Nf ltac:(lia) ltac:(rewrite file_length_of; lia) O1 ltac:(rewrite file_length_of; lia) O2) as F.
    rewrite Fn in F. apply follows_with in F.
    assert (Rm : 256 + k * 168 + t * need + (168 + length_of path * need) <= loading_room env).
    { unfold loading_room. fold (round_need (256 + total env) (total env)). rewrite Nat.add_assoc, <- (Nat.add_assoc _ _ 168), (Nat.add_comm _ 168), Nat.add_assoc, <- Nat.add_assoc, <- Nat.mul_add_distr_r.
      assert ((t + length_of path) * need <= total env * need) by (apply Nat.mul_le_mono_r; exact Lt). lia. }
    eapply follows_weaken; [exact F| | |].
    + intros h n L. unfold RR, within. cbv beta in L. lia.
    + intros h n (L & a & text & b & E & Q). split; [unfold within; lia|]. exists path. split; [exact Ip|]. split; [exact Ef|]. exists a, text, b. rewrite E. auto.
    + intros [c' line'] [[pp' line''] name'] s' ((El & own' & R' & Ev' & Sz') & Eq). cbn [fst snd] in *. split; [exact El|].
      exists own', (lost + file_lost (files path) path c), cells. splits; auto.
      * intros J. destruct Ev' as (_ & E & _). destruct (E _ J) as [J'|L]; [easy|]. apply (Nat.lt_irrefl (length (s_heap s))). assert (B < length (s_heap s)) by (apply nth_error_Some; congruence). lia.
      * destruct Ev' as (E & _). destruct (E B) as (Eh & _); [apply nth_error_Some; congruence|exact N|congruence].
      * apply (evolves_trans _ (B :: own) _ _ _ _ s); [exact Ev|now apply evolves_frame].
      * cbn [fst]. rewrite Nat.mul_add_distr_r. lia.
      * cbn [fst]. apply parse_ignores in Eq. rewrite file_length_of in Eq. lia.
      * intros Z. elim Ef. now apply Z.
Qed.

(** A path is written, and the file read. *)
Lemma try_next k t c line pp name s text : k <= 4 -> searched k t (c, line) (pp, line, name) s -> In text (candidates env) -> t + length_of text <= total env ->
  follows RR RR' (searched (S k) (t + length_of text)) (parse_if_short_says files text line c) (c_parse_if_short files (mkPtr B 0) text line name pp s).
Proof.
  intros Lk Sr It Lt. pose proof Sr as (_ & own & lost & cells & R & N & Nc & Lc & Ev & Sz & Ig & No). cbn [fst snd] in *.
  destruct Ord as (O & _). destruct (proj1 (Forall_forall _ _) O text It) as (Nt & Zt).
  unfold c_parse_if_short, parse_if_short_says.
  assert (W : exists cells1 rest, c_snprintf (mkPtr B 0) MAX_PATH_LEN text (s_heap s) = done (tt, set_block (s_heap s) B (Some cells1)) /\ length cells1 = 256 /\
            cells1 = map Some (firstn 255 text) ++ Some NUL :: rest).
  { unfold c_snprintf. change (N.to_nat MAX_PATH_LEN - 1) with 255.
    assert (Le : length (firstn 255 text) <= 255) by apply firstn_le_length. set (x := firstn 255 text) in *. clearbody x.
    eexists. eexists. split.
    - rewrite (mbind_done _ _ _ _ _ (write_over (x ++ [NUL]) (s_heap s) B 0 cells Nc ltac:(rewrite app_length; cbn [length]; lia))). reflexivity.
    - cbn [firstn app]. split.
      + rewrite app_length, map_length, skipn_length. rewrite app_length. cbn [length]. lia.
      + rewrite map_app, <- app_assoc. cbn [map app]. reflexivity. }
  destruct W as (cells1 & rest & W & L1 & E1). rewrite (wbind_done _ _ _ _ _ (bytes_done _ _ _ _ W)).
  set (s1 := mkStore (set_block (s_heap s) B (Some cells1)) (s_words s)).
  assert (Ln : length (s_heap s1) = length (s_heap s)) by (cbn; now rewrite set_length).
  assert (Lb : B < length (s_heap s)) by (apply nth_error_Some; congruence).
  assert (Sm : forall b, b <> B -> same_at s s1 b) by (intros b Nb; split; [cbn; apply set_other; congruence|reflexivity]).
  assert (Sr1 : searched k t (c, line) (pp, line, name) s1).
  { split; [reflexivity|]. exists own, lost, cells1. cbn [fst snd]. splits; auto.
    - destruct pp as [p|], c as [c'|]; cbn in R |- *; auto. destruct R as (cown & fss & (ps & ig & sown & iown & C & A & G & ->) & -> & ND).
      assert (K : forall b, In b ((p_block p :: sown ++ iown) ++ concat fss) -> same_at s s1 b) by (intros b J; apply Sm; intros ->; easy).
      exists (p_block p :: sown ++ iown), fss. splits; auto. exists ps, ig, sown, iown. splits; auto.
      + apply (content_at s); [|exact C]. apply K. now left.
      + apply (sequences_same s); [intros b J; apply K; cbn [app In]; rewrite !in_app_iff; auto..|exact A].
      + apply (ignored_same s); [intros b J; apply K; cbn [app In]; rewrite !in_app_iff; auto|exact G].
    - cbn. now apply set_same.
    - destruct Ev as (V1 & V2 & V3 & V4). unfold evolves. rewrite Ln. splits; auto.
      + intros b Lb' J. assert (Nb : b <> B) by (cbn; lia). destruct (Sm b Nb) as (X1 & X2), (V1 b Lb' J) as (Y1 & Y2). split; [exact (eq_trans X1 Y1)|exact (eq_trans X2 Y2)].
      + rewrite <- V4. f_equal. exact (live_keep _ _ cells _ Nc).
    - cbn [s1 s_heap]. rewrite (size_set _ _ cells cells1 Nc) by lia. exact Sz. }
  assert (Es : (snprintf_result text <? Z.of_N MAX_PATH_LEN)%Z = (strlen text <? MAX_PATH_LEN)%N).
  { unfold snprintf_result, strlen. replace (Z.of_N (N.of_nat (length text))) with (Z.of_nat (length text)) by lia. apply Z.leb_le in Zt as ->. unfold MAX_PATH_LEN. destruct (Z.ltb_spec (Z.of_nat (length text)) (Z.of_N 256)), (N.ltb_spec (N.of_nat (length text)) 256); auto; lia. }
  rewrite Es. destruct (N.ltb_spec (strlen text) MAX_PATH_LEN) as [Sh|Sh].
  - unfold strlen, MAX_PATH_LEN in Sh. assert (Sl : length text <= 255) by lia. rewrite firstn_all2 in E1 by exact Sl.
    apply (read_next k t c line pp name s1 (mkPtr B 0) text Lk Sr1 It ltac:(lia) Lt); [|cbn; lia].
    exists cells1, rest. cbn [p_block p_off s1 s_heap]. splits; auto. now apply set_same.
  - eapply follows_done; [reflexivity|]. apply (searched_more k t); [lia|lia|exact Sr1].
Qed.

Lemma literal_block x : In x the_literals -> p_block (literal x) < B.
Proof. intros I. destruct (Lits x I) as (cells & rest & E & _). apply nth_error_Some. congruence. Qed.

(** A file with a fixed path is read if there is no configuration yet. *)
Lemma else_next k t c line pp name s path : k <= 4 -> searched k t (c, line) (pp, line, name) s -> In path (candidates env) -> In path the_literals -> length path <= 256 -> t + length_of path <= total env ->
  follows RR RR' (searched (S k) (t + length_of path)) (or_else_says files path line c) (c_or_else literal files path line name pp s).
Proof.
  intros Lk Sr Ip Il Lp Lt. pose proof Sr as (_ & own & lost & cells & R & N & Nc & Lc & Ev & Sz & Ig & No). cbn [fst snd] in *.
  unfold or_else_says, c_or_else. destruct pp as [p|], c as [c|]; cbn in R; try contradiction.
  - eapply follows_done; [reflexivity|]. apply (searched_more k t); [lia|lia|exact Sr].
  - apply (read_next k t None line None name s (literal path) path Lk Sr Ip Lp Lt); [|pose proof (literal_block _ Il); lia].
    apply (evolves_keeps _ _ _ _ _ _ _ Ev); [now apply Lits|easy].
Qed.

Lemma length_total : list_sum (map length_of (candidates env)) = total env.
Proof. reflexivity. Qed.

Lemma results_loaded s p c own : results_at s (Some p) (Some c) own -> loaded_at s p c own.
Proof.
  intros (cown & fss & C & -> & ND). exists cown, fss. splits; auto.
  - exact (NoDup_l _ _ ND).
  - apply NoDup_r in ND. clear C. induction fss as [|f fss IH]; constructor; cbn in ND; [exact (NoDup_l _ _ ND)|apply IH, (NoDup_r _ _ ND)].
  - intros b. exact (NoDup_apart _ _ _ ND).
  - tauto.
Qed.

Lemma loaded_same s s' p c own : (forall b, In b own -> same_at s s' b) -> loaded_at s p c own -> loaded_at s' p c own.
Proof.
  intros S (cown & fss & (ps & ig & sown & iown & C & A & G & ->) & N1 & N2 & F & D & E).
  assert (K : forall b, In b ((p_block p :: sown ++ iown) ++ concat fss) -> same_at s s' b) by (intros b J; apply S, E, J).
  exists (p_block p :: sown ++ iown), fss. splits; auto. exists ps, ig, sown, iown. splits; auto.
  - apply (content_at s); [|exact C]. apply K. now left.
  - apply (sequences_same s); [intros b J; apply K; cbn [app In]; rewrite !in_app_iff; auto..|exact A].
  - apply (ignored_same s); [intros b J; apply K; cbn [app In]; rewrite !in_app_iff; auto|exact G].
Qed.

Theorem search_ok : follows RR RR' (fun c p s' => exists lost, loads s0 lost (loading_room env) c p s' /\ (nothing -> c = spoof_config_file /\ lost = 0))
  (config_file_load_says env None) (c_config_file_load literal env None s0).
Proof.
  unfold config_file_load_says, c_config_file_load.
  assert (Big : 256 + 5 * 168 + total env * need + 2048 = loading_room env) by reflexivity.
  eapply follows_ends with (R0 := fun h n => h = s_heap s0 /\ n = MAX_PATH_LEN) (Q0 := fun p s => p = mkPtr B 0 /\ s = grow s0 [blank 256]).
  { unfold bytes, malloc. destruct (refusal_of (s_heap s0) MAX_PATH_LEN) as [message|] eqn:E; [cbn; econstructor 2; eauto|]. rewrite tbind_done. constructor. auto. }
  { intros h n (-> & ->). unfold RR, within. change (N.to_nat MAX_PATH_LEN) with 256. lia. }
  intros buf s (-> & ->).
  assert (S0 : searched 0 0 (None, 1%N) (None, 1%N, None) (grow s0 [blank 256])).
  { split; [reflexivity|]. exists [], 0, (repeat None 256). cbn [fst snd]. splits; try reflexivity; auto.
    - cbn [grow s_heap]. rewrite nth_error_app2, Nat.sub_diag by lia. reflexivity.
    - apply (evolves_new _ _ _ _ _ [blank 256]); auto. intros b [<-|[]]. auto.
    - cbn [grow s_heap]. rewrite size_app. unfold blank. rewrite size_one, repeat_length. change (N.to_nat 256) with 256. lia. }
  pose proof length_total as LT. unfold candidates, system_paths, user_paths in LT.
  set (t1 := match e_sysconfdir env with Some d => length_of (d ++ bs "/detoxrc") | None => 0 end).
  set (t2 := match e_getenv env (bs "HOME") with Some d => length_of (d ++ bs "/.detoxrc") | None => 0 end).
  set (t3 := match e_getenv env (bs "XDG_CONFIG_HOME") with Some d => length_of (d ++ bs "/detox/detoxrc") | None => 0 end).
  assert (Tot : t1 + length_of (bs "/etc/detoxrc") + length_of (bs "/usr/local/etc/detoxrc") + t2 + t3 = total env).
  { rewrite <- LT. unfold t1, t2, t3. rewrite !map_app, !list_sum_app.
    destruct (e_sysconfdir env), (e_getenv env (bs "HOME")), (e_getenv env (bs "XDG_CONFIG_HOME")); cbn [map list_sum fold_right]; lia. }
  assert (In0 : In (bs "/etc/detoxrc") (candidates env) /\ In (bs "/usr/local/etc/detoxrc") (candidates env)).
  { unfold candidates, system_paths. rewrite !in_app_iff. cbn [In]. auto 6. }
  destruct In0 as (In1 & In2).
  eapply (follows_bind _ _ (searched 1 t1)).
  { unfold t1. destruct (e_sysconfdir env) as [d|] eqn:Ed.
    - apply (try_next 0 0 None 1%N None None _ (d ++ bs "/detoxrc")); auto; try lia.
      + unfold candidates, system_paths. rewrite Ed, !in_app_iff. cbn [In]. auto.
    - eapply follows_done; [reflexivity|]. apply (searched_more 0 0); auto. }
  intros [c1 line1] [[p1 line1'] name1] s1 S1. pose proof (proj1 S1) as E1. cbn [fst snd] in E1. subst line1'.
  eapply (follows_bind _ _ (searched 2 (t1 + length_of (bs "/etc/detoxrc")))).
  { apply (else_next 1 t1); auto; [cbn; tauto|apply Nat.leb_le; reflexivity|lia]. }
  clear S1. intros [c2 line2] [[p2 line2'] name2] s2 S2. pose proof (proj1 S2) as E2. cbn [fst snd] in E2. subst line2'.
  eapply (follows_bind _ _ (searched 3 (t1 + length_of (bs "/etc/detoxrc") + length_of (bs "/usr/local/etc/detoxrc")))).
  { apply (else_next 2 (t1 + length_of (bs "/etc/detoxrc"))); auto; [cbn; tauto|apply Nat.leb_le; reflexivity|lia]. }
  clear S2. intros [c3 line3] [[p3 line3'] name3] s3 S3. pose proof (proj1 S3) as E3. cbn [fst snd] in E3. subst line3'.
  set (tt3 := t1 + length_of (bs "/etc/detoxrc") + length_of (bs "/usr/local/etc/detoxrc")) in *.
  eapply (follows_bind _ _ (searched 4 (tt3 + t2))).
  { unfold t2. destruct (e_getenv env (bs "HOME")) as [d|] eqn:Ed.
    - apply (try_next 3 tt3); auto.
      + unfold candidates, user_paths. rewrite Ed, !in_app_iff. cbn [In]. auto.
      + unfold t2 in Tot. lia.
    - eapply follows_done; [reflexivity|]. apply (searched_more 3 tt3); auto; lia. }
  clear S3. intros [c4 line4] [[p4 line4'] name4] s4 S4. pose proof (proj1 S4) as E4. cbn [fst snd] in E4. subst line4'.
  eapply (follows_bind _ _ (searched 5 (tt3 + t2 + t3))).
  { unfold t3. destruct (e_getenv env (bs "XDG_CONFIG_HOME")) as [d|] eqn:Ed.
    - apply (try_next 4 (tt3 + t2)); auto.
      + unfold candidates, user_paths. rewrite Ed, !in_app_iff. cbn [In]. auto.
      + unfold t3 in Tot. lia.
    - eapply follows_done; [reflexivity|]. apply (searched_more 4 (tt3 + t2)); auto; lia. }
  clear S4. intros [c5 line5] [[p5 line5'] name5] s5 S5. pose proof (proj1 S5) as E5. cbn [fst snd] in E5. subst line5'.
  destruct S5 as (_ & own & lost & cells & R & N & Nc & Lc & Ev & Sz & _ & No). cbn [fst snd] in *. rewrite Tot in Sz.
  (* the end: the path is freed *)
  assert (Fin : forall c p s6 own6 lost6, loaded_at s6 p c own6 -> evolves [] (B :: own6) lost6 s0 s6 -> nth_error (s_heap s6) B = Some (Some cells) -> ~ In B own6 ->
     heap_size (s_heap s6) <= heap_size (s_heap s0) + loading_room env -> (nothing -> c = spoof_config_file /\ lost6 = 0) ->
     follows RR RR' (fun c p s' => exists lost, loads s0 lost (loading_room env) c p s' /\ (nothing -> c = spoof_config_file /\ lost = 0)) (done c) ((let$ _ := bytes (free (mkPtr B 0)) in wret p) s6)).
  { intros c p s6 own6 lost6 L6 E6 N6 B6 Z6 No6. step (wfree_ok s6 B cells N6). eapply follows_done; [reflexivity|]. exists lost6. split; [|exact No6]. exists own6.
    assert (Sm : forall b, b <> B -> same_at s6 (mkStore (set_block (s_heap s6) B None) (s_words s6)) b) by (intros b Nb; split; [cbn; apply set_other; congruence|reflexivity]).
    splits.
    - apply (loaded_same s6); [|exact L6]. intros b J. apply Sm. intros ->. easy.
    - destruct E6 as (V1 & V2 & V3 & V4). unfold evolves. cbn [s_heap]. rewrite set_length. splits; auto.
      + intros b Lb J. destruct (Sm b ltac:(lia)) as (X1 & X2), (V1 b Lb J) as (Y1 & Y2). split; [exact (eq_trans X1 Y1)|exact (eq_trans X2 Y2)].
      + intros b J. apply V2. now right.
      + pose proof (live_set _ _ _ N6). cbn [length] in *. lia.
    - cbn [s_heap]. pose proof (size_free (s_heap s6) B). lia. }
  destruct p5 as [p|], c5 as [c|]; cbn in R; try contradiction.
  - rewrite wbind_ret. apply (Fin c p s5 own lost); auto; [now apply results_loaded|lia|]. intros Z. destruct (No Z). discriminate.
  - subst own. assert (Lits5 : literals_in (s_heap s5) literal the_literals) by (intros x I; apply (evolves_keeps _ _ _ _ _ _ _ Ev); [now apply Lits|easy]).
    eapply follows_ends; [exact (spoof_ok literal s5 Lits5)| |].
    + intros h n L. unfold in_room, spoof_room in L. unfold RR, within. lia.
    + intros p s6 (own6 & L6 & E6 & Z6). unfold spoof_room in Z6.
      assert (Lb : B < length (s_heap s5)) by (apply nth_error_Some; congruence).
      apply (Fin spoof_config_file p s6 own6 (lost + 0)); auto.
      * apply (evolves_trans _ [B] _ _ _ _ s5); [exact Ev|now apply evolves_frame].
      * destruct E6 as (E & _). destruct (E B Lb ltac:(easy)) as (Eh & _). congruence.
      * intros J. destruct E6 as (_ & E & _). destruct (E _ J) as [[]|]. lia.
      * lia.
      * intros Z. destruct (No Z). split; [reflexivity|lia].
Qed.

(** ** A file that was asked for *)

Theorem named_ok q path : cstr_at (s_heap s0) q path -> moderate path (contents_of (files path)) [] ->
  follows (within s0 (length path + 1 + reading_room path (contents_of (files path)) []))
    (fun h n => within s0 (length path + 1 + reading_room path (contents_of (files path)) []) h n /\ for_text (contents_of (files path)) n)
    (loads s0 (1 + file_lost (files path) path None) (length path + 1 + reading_room path (contents_of (files path)) []))
    (config_file_load_says env (Some path)) (c_config_file_load literal env (Some q) s0).
Proof.
  intros Cq (M1 & M2). unfold config_file_load_says, c_config_file_load. set (room := reading_room path (contents_of (files path)) []).
  eapply follows_ends; [apply (strdup_ok s0 q path Cq)| |].
  { unfold fits, strlen. lia. }
  { intros h n (-> & ->). unfold within, strlen. lia. }
  intros copy s1 (-> & -> & _). set (s1 := grow s0 [string_block path]).
  assert (C1 : cstr_at (s_heap s1) (mkPtr B 0) path).
  { exists (map Some path ++ [Some NUL]), []. cbn [s1 grow s_heap p_block p_off]. rewrite nth_error_app2, Nat.sub_diag by lia. splits; auto. exact (cstr_at_nonul _ _ _ Cq). }
  assert (Sz1 : heap_size (s_heap s1) = heap_size (s_heap s0) + length path + 1).
  { cbn [s1 grow s_heap]. rewrite size_app. unfold string_block. rewrite size_one, app_length, map_length. cbn [length]. lia. }
  assert (Fl : file_length (files path) = length (contents_of (files path))) by apply file_length_of.
  assert (Fn : file_need (files path) (length path + length (contents_of (files path))) (length (contents_of (files path))) = room).
  { unfold room, file_need, reading_room, round_need. destruct (files path); cbn [contents_of length]; lia. }
  pose proof (parse_file_ok files (length path + length (contents_of (files path))) (length (contents_of (files path))) (mkPtr B 0) path 1%N None None None s1 []
    C1 eq_refl ltac:(easy) ltac:(lia) ltac:(lia) M1 ltac:(cbn; lia) ltac:(cbn [length] in M2; lia)) as F. rewrite Fn in F.
  eapply follows_bind.
  - eapply follows_weaken; [exact F| | |intros b a s' Q; exact Q].
    + intros h n L. unfold within. cbv beta in L. lia.
    + intros h n (L & a & text & b & E & Q). split; [unfold within; lia|]. exists a, text, b. rewrite E. auto.
  - intros [c line] [[p line'] name] s2 (_ & own & R & Ev & Sz). cbn [fst snd] in *. assert (Ev1 : evolves [] [] 1 s0 s1) by apply (evolves_grow [] s0 [string_block path]).
    destruct p as [p|], c as [c|]; cbn in R; try contradiction.
    + eapply follows_done; [reflexivity|]. exists own. splits; [now apply results_loaded|exact (evolves_trans _ _ _ _ _ _ _ _ Ev1 Ev)|lia].
    + assert (C2 : cstr_at (s_heap s2) (mkPtr B 0) path) by (apply (evolves_keeps _ _ _ _ _ _ _ Ev C1); easy).
      step (bytes_done _ _ _ _ (read_ok _ _ _ C2)). now apply follows_exit.
Qed.

End load.
