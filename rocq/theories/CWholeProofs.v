(** * Proofs about the whole program in memory: parts *)

From Verif Require Import Base BaseFacts Stdio Filelist Options Table Filter Spoof ConfigSpec ConfigLex ConfigParse ConfigLoad ConfigLoadSpec Prog ProgFacts Warnings File FileSpec FilelistProofs Inline Startup Main MainProofs WarningsProofs
  Mem MemSpec MemFacts CFileProofs Words WordsSpec WordsFacts CTableProofs CTableProofs2 FilesSpec CFilelist CConfig LinkedSpec CConfigProofs
  CConfigProofs2 CConfigProofs5 CConfigProofs7 CLoad CLoadSpec CLoadProofs4 CLoadProofs5 CReview CReviewSpec CReviewProofs CReviewProofs2 CRun CRunSpec CRunProofs3 COptions COptionsSpec CDump CDumpProofs
  CWork CWorkSpec CWorkSim CWorkProofs CWorkProofs3 CWhole CWholeSpec.

Local Open Scope nat_scope.

(** ** From functions to programs *)

Section programs.

Context {al : allocator} {A B : Type} (short : heap -> N -> Prop) (over : list event -> Prop) (R : list event -> A * store_t -> B -> Prop).

Lemma wsim_follows {C D} (Rr Ru : heap -> N -> Prop) (Q : D -> C -> store_t -> Prop) tr (m : wmem C) s pure (k : C -> sprog A) (k' : D -> prog B) :
  follows Rr Ru Q pure (m s) -> (forall h n, Rr h n -> short h n) -> (forall h n message, refusal_of h n = Some message -> Ru h n -> over tr) ->
  (forall d c s', snd pure = Ok d -> m s = (fst pure, Ok (c, s')) -> Q d c s' -> wsim short over R (tr ++ map heard (fst pure)) (k c s') (k' d)) ->
  wsim short over R tr (sbind (inner m) k s) (pbind (talking pure) k').
Proof.
  intros F Hs Hu K. unfold sbind, inner. rewrite !talking_bind. remember (m s) as t eqn:Em. destruct F as [said d c s' Ep Hq|said x Ep|said w Ep|said said' h n message Ep Er Hr|h n message t Er Hr].
  - rewrite Ep in *. cbn [fst snd] in *. apply wsim_told_both. exact (K _ _ _ eq_refl eq_refl Hq).
  - rewrite Ep. cbn [fst snd]. apply wsim_told_both, wsim_stop.
  - rewrite Ep. cbn [fst snd]. apply wsim_told_both, wsim_stop.
  - rewrite Ep. cbn [fst snd]. rewrite !told_app. apply wsim_told_both. exact (wsim_memory _ _ R _ message _ n _ Er (Hs _ _ Hr)).
  - apply wsim_over. exact (Hu _ _ _ Er Hr).
Qed.

End programs.

(** Something had happened before. *)
Lemma wsim_after {al : allocator} {A B} (short : heap -> N -> Prop) (over over' : list event -> Prop) (R R' : list event -> A -> B -> Prop) tr0 tr p q :
  wsim short over R tr p q -> (forall tr, over tr -> over' (tr0 ++ tr)) -> (forall tr a b, R tr a b -> R' (tr0 ++ tr) a b) -> wsim short over' R' (tr0 ++ tr) p q.
Proof.
  intros S Ko Kr. induction S as [tr a b H|tr w|tr c k k' H IH|tr message h n q E Sh|tr p q O].
  - apply wsim_ret. auto.
  - apply wsim_stop.
  - apply wsim_call. intros r F. rewrite <- app_assoc. auto.
  - exact (wsim_memory _ _ R' _ message h n q E Sh).
  - apply wsim_over. auto.
Qed.

Lemma worn_after pf q k a b : CWorkSpec.worn pf q k b -> CWorkSpec.worn pf q k (a ++ b).
Proof. unfold CWorkSpec.worn, names_in. rewrite flat_map_app, lookups_both. lia. Qed.

(** ** The flags *)

Definition flags_of (o : options_t) : options_t :=
  mkOptions (o_platform o) (o_dry_run o) (o_is_inline_bin o) (o_is_inline_mode o) (o_list_sequences o) (o_recurse o) (o_special o) (o_verbose o) None None None None None.

Section flags.

Context {al : allocator} (literal : str -> ptr) (sequence ignore files : option ptr) (o : options_t).

Lemma parse_file_flags name : w_parse_file literal sequence name (flags_of o) = w_parse_file literal sequence name o.
Proof. reflexivity. Qed.

Lemma walk_flags fuel : w_parse_dir literal sequence ignore fuel (flags_of o) = w_parse_dir literal sequence ignore fuel o /\
  w_dir_loop literal sequence ignore fuel (flags_of o) = w_dir_loop literal sequence ignore fuel o.
Proof.
  induction fuel as [|fuel (IH1 & IH2)]; [split; reflexivity|]. split.
  - cbn [w_parse_dir]. fold (@w_dir_loop al literal sequence ignore). rewrite IH2. reflexivity.
  - cbn [w_dir_loop]. fold (@w_dir_loop al literal sequence ignore) (@w_parse_dir al literal sequence ignore). rewrite IH1, IH2. reflexivity.
Qed.

Lemma process_flags fuel : forall n, w_process_arguments literal sequence ignore files n fuel (flags_of o) = w_process_arguments literal sequence ignore files n fuel o.
Proof.
  induction n as [|n IH]; [reflexivity|]. cbn [w_process_arguments]. rewrite IH. unfold w_process_argument. rewrite (proj1 (walk_flags fuel)). reflexivity.
Qed.

Lemma inline_arguments_flags : forall n, w_inline_arguments literal sequence files n (flags_of o) = w_inline_arguments literal sequence files n o.
Proof. induction n as [|n IH]; [reflexivity|]. cbn [w_inline_arguments]. rewrite IH. reflexivity. Qed.

Lemma work_flags fuel s : w_work literal sequence ignore files fuel (flags_of o) s = w_work literal sequence ignore files fuel o s.
Proof. unfold w_work. cbv zeta. rewrite process_flags, inline_arguments_flags. reflexivity. Qed.

Lemma flags_ok s p which ign name check fs : content s p (option_values o which ign name check fs) -> c_flags (o_platform o) p s = done (flags_of o, s).
Proof.
  intros C. unfold c_flags.
  step (int_at_ok s p _ 0 _ C eq_refl : int_at p OP_dry_run s = _). step (int_at_ok s p _ 1 _ C eq_refl : int_at p OP_is_inline_bin s = _).
  step (int_at_ok s p _ 2 _ C eq_refl : int_at p OP_is_inline_mode s = _). step (int_at_ok s p _ 3 _ C eq_refl : int_at p OP_list_sequences s = _).
  step (int_at_ok s p _ 4 _ C eq_refl : int_at p OP_recurse s = _). step (int_at_ok s p _ 5 _ C eq_refl : int_at p OP_special s = _).
  step (int_at_ok s p _ 6 _ C eq_refl : int_at p OP_verbose s = _). cbv zeta. rewrite N2Z.id. unfold flags_of.
  destruct (o_dry_run o), (o_is_inline_bin o), (o_is_inline_mode o), (o_list_sequences o), (o_recurse o), (o_special o); reflexivity.
Qed.

End flags.

(** The platform is not an option. *)
Lemma code_platform package c o o' : snd (option_code_says package c o) = Ok o' -> o_platform o' = o_platform o.
Proof.
  assert (X : snd (aloud (option_code package c o)) = Ok o' -> o_platform o' = o_platform o).
  { assert (Y : snd (aloud (option_code package c o)) = snd (option_code package c o)) by (unfold aloud, print_out; destruct (fst (option_code package c o)); reflexivity).
    rewrite Y. unfold option_code. destruct c as [l optarg|n];
      repeat match goal with |- context[if ?b then _ else _] => destruct b end; try destruct optarg; cbn [snd]; try discriminate; intros E; injection E as <-; reflexivity. }
  unfold option_code_says. destruct c as [l optarg|n]; [|exact X]. destruct (existsb (beq l) (bs "hfLnrsvV?")); [exact X|discriminate].
Qed.

Lemma codes_platform package cs : forall o o', snd (option_codes_says package cs o) = Ok o' -> o_platform o' = o_platform o.
Proof.
  induction cs as [|[c message] cs IH]; intros o o'; cbn [option_codes_says]; [intros E; injection E as <-; reflexivity|].
  assert (X : snd (let% o := option_code_says package c o in option_codes_says package cs o) = Ok o' -> o_platform o' = o_platform o).
  { pose proof (code_platform package c o) as P. destruct (option_code_says package c o) as [t [o1| |]]; cbn [tbind]; try discriminate. specialize (IH o1 o').
    destruct (option_codes_says package cs o1) as [t2 r2]. cbn [snd] in *. intros E. rewrite (IH E). now apply P. }
  destruct message as [m|]; cbn [tbind complain]; destruct (let% o := option_code_says package c o in option_codes_says package cs o); exact X.
Qed.

Lemma says_platform sys argv o : snd (says_options sys argv) = Ok o -> o_platform o = m_platform sys.
Proof.
  unfold says_options, parse_options_says. destruct (getopt_long_says _ _ _ _ _ _) as [codes files].
  pose proof (codes_platform (m_package sys) codes (options_start (m_platform sys) (e_getenv (m_env sys)) (hd_error argv))) as P.
  destruct (option_codes_says _ _ _) as [t [o1| |]]; cbn [tbind]; try discriminate. specialize (P o1 eq_refl). cbn [options_start o_platform] in P.
  destruct (o_list_sequences o1); [cbn; intros E; injection E as <-; exact P|]. destruct files as [|f files].
  - destruct (o_is_inline_mode o1); [|unfold print_out; destruct (usage o1); discriminate]. cbn. intros E. injection E as <-. exact P.
  - destruct (put_files filelist_init (f :: files)); cbn; try discriminate. intros E. injection E as <-. exact P.
Qed.

(** ** The number of sequences *)

Lemma put_count name fs file qs : length (put_sequence name fs file qs) <= S (length qs).
Proof. induction qs as [|q qs IH]; cbn [put_sequence length]; [lia|]. destruct (str_eqb (s_name q) name); cbn [length]; lia. Qed.

Lemma step_count filename p s t p' s' : parse_step filename p s t = Some (p', s') -> length (c_sequences s') <= S (length (c_sequences s)).
Proof.
  destruct p, t; cbn [parse_step string_token]; unfold method_state; try discriminate;
    repeat match goal with
    | |- context[match ?x with _ => _ end] => is_var x; destruct x; try discriminate
    | |- context[match ?x with _ => _ end] => destruct x; try discriminate
    end;
    intros E; try discriminate; injection E as <- <-; try (cbn; lia); apply put_count.
Qed.

Lemma yyparse_count fuel filename : forall p s line input c l, snd (yyparse_says fuel filename p s line input) = Ok (c, l) ->
  length (c_sequences c) <= length (c_sequences s) + fuel.
Proof.
  induction fuel as [|fuel IH]; intros p s line input c l.
  - cbn [yyparse_says]. destruct p; cbn; try discriminate. intros E. injection E as <- <-. lia.
  - destruct input as [|b input].
    + cbn [yyparse_says]. destruct p; cbn; try discriminate. intros E. injection E as <- <-. lia.
    + cbn [yyparse_says]. destruct (lex_round_says (b :: input)) as [[[[[printed t] text] nl] rest]| |]; cbn [quietly tbind]; try discriminate.
      assert (X : forall (m : talk (cf_state * N)), snd (let% _ := print_out printed in m) = snd m) by (intros [o r]; destruct printed; reflexivity).
      match goal with |- context[let% _ := print_out printed in ?m] => specialize (X m) end.
      match goal with |- context[tbind (print_out printed) ?k] => destruct (tbind (print_out printed) k) as [o r] end. cbn [snd fst] in *. rewrite X. clear X.
      destruct t as [t|].
      * destruct (parse_step filename p s t) as [[p' s']|] eqn:E; [|cbn; discriminate]. intros F. apply step_count in E. apply IH in F. lia.
      * intros F. apply IH in F. lia.
Qed.

Definition count_of (c : option config_t) : nat := length (sequences_of c).
Definition counted (n : nat) (r : talk (option config_t * N)) : Prop := forall c l, snd r = Ok (c, l) -> count_of c <= n.
Definition counted_config (n : nat) (r : talk config_t) : Prop := forall c, snd r = Ok c -> length (cf_sequences c) <= n.

Lemma parse_count files path line pc : counted (count_of pc + length (contents_of (files path))) (parse_config_file_says files path line pc).
Proof.
  intros c l. unfold parse_config_file_says. destruct (files path) as [| |contents].
  - cbn. intros E. injection E as -> <-. lia.
  - cbn. discriminate.
  - match goal with |- context[tbind ?m _] => destruct m as [o [[s' l']| |]] eqn:E end; cbn; try discriminate. intros F. injection F as <- <-. unfold count_of at 1. cbn [sequences_of cf_sequences].
    match type of E with yyparse_says ?a ?b ?c0 ?d ?e ?f = _ => pose proof (yyparse_count a b c0 d e f s' l') as Y end. rewrite E in Y. cbn [snd] in Y. specialize (Y eq_refl). cbn [c_sequences] in Y.
    destruct pc as [c|]; exact Y.
Qed.

Lemma count_bind n m (r : talk (option config_t * N)) k : counted n r -> (forall c l, count_of c <= n -> counted_config m (k (c, l))) -> counted_config m (tbind r k).
Proof.
  intros M K c. destruct r as [o [[c0 l0]| |]]; cbn; try discriminate. specialize (K c0 l0 (M _ _ eq_refl) c). intros E. apply K. now destruct (k (c0, l0)) as [o' r'].
Qed.

Lemma short_count files path line pc : counted (count_of pc + length (contents_of (files path))) (parse_if_short_says files path line pc).
Proof. unfold parse_if_short_says. destruct (_ <? _)%N; [now apply parse_count|]. intros c l E. cbn in E. injection E as -> <-. lia. Qed.

Lemma else_count files path line pc : counted (count_of pc + length (contents_of (files path))) (or_else_says files path line pc).
Proof. unfold or_else_says. destruct pc as [c0|]; [|apply (parse_count files path line None)]. intros c l E. cbn in E. injection E as <- <-. lia. Qed.

Lemma done_count c0 l0 : counted (count_of c0) (done (c0, l0)).
Proof. intros c l E. cbn in E. injection E as -> <-. lia. Qed.

Lemma counted_more n m r : counted n r -> n <= m -> counted m r.
Proof. intros C L c l E. specialize (C c l E). lia. Qed.

Theorem load_count sys o c : readable sys o -> snd (config_file_load_says (m_env sys) (o_check_config_file o)) = Ok c -> (Z.of_nat (length (cf_sequences c)) <= int_max)%Z.
Proof.
  unfold readable, config_file_load_says. set (env := m_env sys). destruct (o_check_config_file o) as [path|].
  - intros (_ & M). pose proof (parse_count (e_files env) path 1%N None) as K. fold env in M. destruct (parse_config_file_says (e_files env) path 1 None) as [t [[[c0|] l0]| |]]; cbn; try discriminate.
    intros E. injection E as <-. specialize (K _ _ eq_refl). unfold count_of in K. cbn [sequences_of length] in K. cbn [length] in M. unfold int_max in *. lia.
  - intros (_ & _ & M). fold env in M. set (len p := length (contents_of (e_files env p))).
    assert (T : list_sum (map len (candidates env)) = total env) by reflexivity.
    unfold candidates, system_paths, user_paths in T. rewrite !map_app, !list_sum_app in T.
    assert (X : forall n, total env <= n -> 11 <= n -> (Z.of_nat n <= int_max)%Z -> counted_config n (config_file_load_says env None)).
    { intros n Ln L11 Ln'. unfold config_file_load_says.
      set (n1 := match e_sysconfdir env with Some d => len (d ++ bs "/detoxrc") | None => 0 end).
      set (n4 := match e_getenv env (bs "HOME") with Some d => len (d ++ bs "/.detoxrc") | None => 0 end).
      set (n5 := match e_getenv env (bs "XDG_CONFIG_HOME") with Some d => len (d ++ bs "/detox/detoxrc") | None => 0 end).
      set (n2 := len (bs "/etc/detoxrc")). set (n3 := len (bs "/usr/local/etc/detoxrc")).
      assert (T' : n1 + n2 + n3 + n4 + n5 = total env).
      { rewrite <- T. unfold n1, n2, n3, n4, n5. destruct (e_sysconfdir env), (e_getenv env (bs "HOME")), (e_getenv env (bs "XDG_CONFIG_HOME")); cbn [map list_sum fold_right]; lia. }
      apply (count_bind n1); [unfold n1; destruct (e_sysconfdir env); [exact (short_count (e_files env) _ _ None)|exact (done_count None _)]|]. intros c1 l1 K1. cbv beta iota.
      apply (count_bind (n1 + n2)); [eapply counted_more; [apply else_count|]; exact (Nat.add_le_mono _ _ _ _ K1 (Nat.le_refl _))|]. intros c2 l2 K2. cbv beta iota.
      apply (count_bind (n1 + n2 + n3)); [eapply counted_more; [apply else_count|]; exact (Nat.add_le_mono _ _ _ _ K2 (Nat.le_refl _))|]. intros c3 l3 K3. cbv beta iota.
      apply (count_bind (n1 + n2 + n3 + n4)); [unfold n4; destruct (e_getenv env (bs "HOME")); [eapply counted_more; [apply short_count|]; exact (Nat.add_le_mono _ _ _ _ K3 (Nat.le_refl _))|eapply counted_more; [apply done_count|]; lia]|]. intros c4 l4 K4. cbv beta iota.
      apply (count_bind (n1 + n2 + n3 + n4 + n5)); [unfold n5; destruct (e_getenv env (bs "XDG_CONFIG_HOME")); [eapply counted_more; [apply short_count|]; exact (Nat.add_le_mono _ _ _ _ K4 (Nat.le_refl _))|eapply counted_more; [apply done_count|]; lia]|]. intros c5 l5 K5. cbv beta iota.
      destruct c5 as [c5|]; intros c' E; cbn [done snd quietly] in E; [injection E as <-; unfold count_of in K5; cbn [sequences_of] in K5; lia|].
      assert (Es : spoof_config_file = c') by congruence. rewrite <- Es. change (length (cf_sequences spoof_config_file)) with 11. exact L11. }
    intros E. specialize (X (total env + 32) ltac:(lia) ltac:(lia) M c E). lia.
Qed.
