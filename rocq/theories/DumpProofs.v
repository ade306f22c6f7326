(** * Proofs about -L *)

From Verif Require Import Base BaseFacts Stdio ParseTableSpec GenProofs Filter Spoof Filelist Prog ProgFacts File FileSpec SequenceProofs
  ConfigLex ConfigParse ConfigLoad ConfigLoadProofs Options OptionsSpec OptionsProofs ConfigLex Startup StartProofs StartOptions Main MainSpec MainProofs.

Local Open Scope nat_scope.

Lemma position_spec wanted l :
  match position wanted l with
  | Some i => exists before s after, l = before ++ s :: after /\ s_name s = wanted /\
                Forall (fun x => s_name x <> wanted) before /\ length before = i
  | None => Forall (fun x => s_name x <> wanted) l
  end.
Proof.
  induction l as [|s l IH]; cbn [position]; [constructor|].
  destruct (str_eqb (s_name s) wanted) eqn:E.
  - apply str_eqb_eq in E. exists [], s, l. splits; auto.
  - apply str_eqb_neq in E. destruct (position wanted l) as [i|]; cbn [option_map].
    + destruct IH as (b & x & a & -> & N & F & L). exists (s :: b), x, a. splits; auto. simpl. congruence.
    + constructor; auto.
Qed.

Lemma chosen_position_spec seqs name :
  match chosen_position seqs name with
  | Some i => exists before s after, seqs = before ++ s :: after /\ sequence_choose_default seqs name = Some s /\
                Forall (fun x => s_name x <> s_name s) before /\ length before = i
  | None => sequence_choose_default seqs name = None
  end.
Proof.
  unfold chosen_position.
  pose proof (position_spec (match name with Some n => n | None => bs "default" end) seqs) as P.
  destruct (position _ seqs) as [i|].
  - destruct P as (b & s & a & E & N & F & L). exists b, s, a. splits; auto; [|now rewrite N].
    destruct name as [n|].
    + apply choose_by_name. exists b, a. auto.
    + rewrite choose_default.
      assert (X : sequence_choose_default seqs (Some (bs "default")) = Some s) by (apply choose_by_name; exists b, a; auto).
      now rewrite X.
  - destruct name as [n|].
    + now apply choose_none.
    + assert (X : sequence_choose_default seqs (Some (bs "default")) = None) by now apply choose_none.
      destruct seqs as [|s r]; [reflexivity|]. exists [], s, r. splits; auto. rewrite choose_default, X. reflexivity.
Qed.

Definition mark_of (chosen : option nat) (n : nat) : string :=
  match chosen with Some i => if i =? n then " (*)"%string else ""%string | None => ""%string end.

Lemma dump_short chosen : forall l count,
  dump_sequences false chosen count l =
  Ok (flat_map (fun x => x) (map (fun p => short_entry (mark_of chosen (fst p)) (snd p))
        (combine (seq count (length l)) l))).
Proof.
  induction l as [|s l IH]; intros count; [reflexivity|]. cbn [dump_sequences]. rewrite IH. cbn [bind length seq combine map flat_map fst snd].
  f_equal. unfold short_entry. rewrite <- !app_assoc. do 2 f_equal. unfold mark_of. destruct chosen as [i|]; [destruct (i =? count)|]; reflexivity.
Qed.

Lemma paragraphs_cons p l : l <> [] -> paragraphs (p :: l) = p ++ [eol] ++ paragraphs l.
Proof. destruct l; [easy|reflexivity]. Qed.

Lemma dump_long chosen : forall l count, Forall (fun s => s_source s <> None) l ->
  dump_sequences true chosen count l =
  Ok (match l with [] => [] | _ => if 0 <? count then [eol] else [] end ++
      paragraphs (map (fun p => long_entry dump_filter (mark_of chosen (fst p)) (snd p))
        (combine (seq count (length l)) l))).
Proof.
  induction l as [|s l IH]; intros count F; [reflexivity|]. inversion F; subst. cbn [dump_sequences].
  destruct (s_source s) as [src|] eqn:Es; [|easy]. cbn [bind]. rewrite IH by assumption. cbn [bind]. f_equal.
  rewrite <- !app_assoc. f_equal. cbn [length seq combine map fst snd].
  assert (E : forall mark, long_entry dump_filter mark s = bs "sequence name: " ++ (s_name s ++ bs mark ++ [eol]) ++ [tab] ++ bs "source file: " ++
            src ++ [eol] ++ flat_map dump_filter (s_filters s)).
  { intros mark. unfold long_entry. rewrite Es, <- !app_assoc. reflexivity. }
  assert (M : (match chosen with Some i => if i =? count then bs " (*)" else [] | None => [] end) =
              bs (mark_of chosen count)).
  { unfold mark_of. destruct chosen as [i|]; [destruct (i =? count)|]; reflexivity. }
  rewrite M. destruct l as [|s2 l].
  - cbn [combine map paragraphs seq length]. rewrite E, <- !app_assoc. cbn [app]. rewrite ?app_nil_r. reflexivity.
  - rewrite paragraphs_cons by discriminate. rewrite E, <- !app_assoc. change (0 <? S count) with true. cbv iota. reflexivity.
Qed.

Lemma map_combine_marks {A} (entry : string -> sequence_t -> A) (i : option nat) : forall l count,
  (forall k, i = Some k -> k < count \/ count + length l <= k) ->
  map (fun p => entry (mark_of i (fst p)) (snd p)) (combine (seq count (length l)) l)
  = map (entry ""%string) l.
Proof.
  induction l as [|s l IH]; intros count H; [reflexivity|]. cbn [length seq combine map fst snd]. f_equal.
  - unfold mark_of. destruct i as [i|]; [|reflexivity]. destruct (Nat.eqb_spec i count); [|reflexivity].
    specialize (H i eq_refl). simpl in H. lia.
  - apply IH. intros k E. specialize (H k E). simpl in H. lia.
Qed.

Lemma combine_app_seq {A} (a b : list A) : forall n,
  combine (seq n (length (a ++ b))) (a ++ b) = combine (seq n (length a)) a ++ combine (seq (n + length a) (length b)) b.
Proof.
  induction a as [|x a IH]; intros n; simpl; [now rewrite Nat.add_0_r|]. f_equal. rewrite IH. do 3 f_equal. lia.
Qed.

Lemma entries_marked entry seqs name :
  marked entry seqs name
    (map (fun p => entry (mark_of (chosen_position seqs name) (fst p)) (snd p))
       (combine (seq 0 (length seqs)) seqs)).
Proof.
  pose proof (chosen_position_spec seqs name) as P. destruct (chosen_position seqs name) as [i|].
  - right. destruct P as (b & s & a & E & C & F & L). exists b, s, a. splits; auto. rewrite E.
    rewrite combine_app_seq, map_app.
    rewrite (map_combine_marks entry (Some i)) by (intros k X; injection X as <-; lia).
    cbn [length seq combine map fst snd]. rewrite Nat.add_0_l, <- L. unfold mark_of at 1. rewrite Nat.eqb_refl.
    rewrite (map_combine_marks entry (Some (length b))) by (intros k X; injection X as <-; lia). reflexivity.
  - left. split; auto. apply (map_combine_marks entry None). discriminate.
Qed.

(** ** Every sequence of a configuration has a source *)

Definition sourced (l : list sequence_t) : Prop := Forall (fun s => s_source s <> None) l.

Lemma put_sequence_sourced name fs src l : sourced l -> sourced (put_sequence name fs src l).
Proof.
  unfold sourced. induction 1 as [|s l H F IH]; cbn [put_sequence].
  - constructor; auto. discriminate.
  - destruct (str_eqb (s_name s) name); constructor; auto. simpl. discriminate.
Qed.

Lemma parse_step_sourced filename p s t p' s' : parse_step filename p s t = Some (p', s') -> sourced (c_sequences s) -> sourced (c_sequences s').
Proof.
  intros E H.
  assert (K : c_sequences s' = c_sequences s \/ s' = cf_append_sequence_list filename s).
  { destruct p, t; cbn [parse_step string_token] in E; try discriminate;
      repeat match type of E with
      | context [match ?x with _ => _ end] => destruct x; try discriminate
      | Some (_, ?x) = Some (_, s') => assert (x = s') by congruence; subst s'; auto
      end. }
  destruct K as [K|K]; [rewrite K; exact H|]. subst s'. now apply put_sequence_sourced.
Qed.

Lemma yyparse_more fuel filename p s c input :
  yyparse (S fuel) filename p s (c :: input) =
  match lex_round (c :: input) with
  | Ok (Lexed printed None, rest) =>
    let r := yyparse fuel filename p s rest in (printed ++ fst r, snd r)
  | Ok (Lexed printed (Some t), rest) =>
    match parse_step filename p s t with
    | Some (p', s') => let r := yyparse fuel filename p' s' rest in (printed ++ fst r, snd r)
    | None => (printed, Exit EXIT_FAILURE)
    end
  | UB w => ([], UB w)
  | Exit c => ([], Exit c)
  end.
Proof. reflexivity. Qed.

Lemma yyparse_sourced filename : forall fuel p s input printed s',
  yyparse fuel filename p s input = (printed, Ok s') -> sourced (c_sequences s) -> sourced (c_sequences s').
Proof.
  induction fuel as [|fuel IH]; intros p s input printed s' E H.
  - cbn [yyparse] in E. apply (f_equal snd) in E. destruct p; cbn [snd] in E; try discriminate. now injection E as <-.
  - destruct input as [|c input].
    { cbn [yyparse] in E. apply (f_equal snd) in E. destruct p; cbn [snd] in E; try discriminate. now injection E as <-. }
    rewrite yyparse_more in E. destruct (lex_round (c :: input)) as [[[pr [t|]] rest]|w|n].
    + destruct (parse_step filename p s t) as [[p2 s2]|] eqn:P.
      * destruct (yyparse fuel filename p2 s2 rest) as [x y] eqn:Y. assert (y = Ok s') by (now apply (f_equal snd) in E). subst y.
        eapply IH; [exact Y|]. eapply parse_step_sourced; eauto.
      * apply (f_equal snd) in E. discriminate.
    + destruct (yyparse fuel filename p s rest) as [x y] eqn:Y. assert (y = Ok s') by (now apply (f_equal snd) in E). subst y.
      eapply IH; eauto.
    + apply (f_equal snd) in E. discriminate.
    + apply (f_equal snd) in E. discriminate.
Qed.

Definition osourced (c : option config_t) : Prop := match c with Some c => sourced (cf_sequences c) | None => True end.

Lemma parse_config_sourced files filename previous printed c :
  parse_config_file files filename previous = (printed, Ok c) -> osourced previous -> osourced c.
Proof.
  unfold parse_config_file. destruct (files filename) as [| |bytes]; intros E H.
  - apply (f_equal snd) in E. cbn [snd] in E. now injection E as <-.
  - apply (f_equal snd) in E. discriminate.
  - unfold wbind in E.
    destruct (yyparse _ _ _ _ _) as [pr [s'|w|n]] eqn:Y; cbn [fst snd] in E; apply (f_equal snd) in E; try discriminate.
    cbn [snd] in E. injection E as <-. cbn [osourced cf_sequences]. eapply yyparse_sourced; [exact Y|].
    cbn [c_sequences]. destruct previous; [exact H|constructor].
Qed.

Lemma wbind_ok {A B} (m : wres A) (k : A -> wres B) printed b : wbind m k = (printed, Ok b) ->
  exists p1 a p2, m = (p1, Ok a) /\ k a = (p2, Ok b) /\ printed = p1 ++ p2.
Proof.
  unfold wbind. destruct m as [p1 [a|w|n]]; cbn [fst snd]; intros E; try (apply (f_equal snd) in E; discriminate).
  destruct (k a) as [p2 r] eqn:K. pose proof (f_equal fst E) as E1. pose proof (f_equal snd E) as E2. cbn [fst snd] in *.
  exists p1, a, p2. rewrite K, E2. auto.
Qed.

Lemma read_all_sourced files paths : forall previous printed c,
  ConfigLoadSpec.read_all files paths previous = (printed, Ok c) -> osourced previous -> osourced c.
Proof.
  induction paths as [|p paths IH]; intros previous printed c E H; cbn [ConfigLoadSpec.read_all] in E.
  - apply (f_equal snd) in E. cbn [snd] in E. now injection E as <-.
  - apply wbind_ok in E. destruct E as (p1 & a & p2 & E1 & E2 & _). eapply IH; [exact E2|]. eapply parse_config_sourced; eauto.
Qed.

Lemma load_sourced env file printed c : config_file_load env file = (printed, Ok c) -> sourced (cf_sequences c).
Proof.
  destruct file as [f|].
  - unfold config_file_load. intros E. apply wbind_ok in E. destruct E as (p1 & [a|] & p2 & E1 & E2 & _).
    + apply parse_config_sourced in E1; [|exact I]. apply (f_equal snd) in E2. cbn [snd] in E2. now injection E2 as <-.
    + apply (f_equal snd) in E2. discriminate.
  - rewrite config_file_load_spec. intros E. apply wbind_ok in E. destruct E as (p1 & [a|] & p2 & E1 & E2 & _).
    + apply read_all_sourced in E1; [|exact I]. apply (f_equal snd) in E2. cbn [snd] in E2. now injection E2 as <-.
    + apply (f_equal snd) in E2. cbn [snd] in E2. injection E2 as <-. unfold sourced. repeat constructor; discriminate.
Qed.

(** ** What is said of a filter *)

Lemma radix_head base : (2 <= base <= 16)%N -> forall fuel n acc, (n < base ^ N.of_nat fuel)%N -> n <> 0%N ->
  exists d r, radix base fuel n acc = digit_char d :: r /\ (0 < d < base)%N.
Proof.
  intros B. induction fuel as [|fuel IH]; intros n acc H Z; [change (N.of_nat 0) with 0%N in H; rewrite N.pow_0_r in H; lia|].
  cbn [radix]. destruct (N.eqb_spec (n / base) 0) as [E|E].
  - exists (n mod base)%N, acc. split; [reflexivity|]. pose proof (N.mod_upper_bound n base ltac:(lia)).
    pose proof (N.div_mod n base ltac:(lia)) as D. rewrite E in D. lia.
  - apply IH; [|exact E]. apply N.div_lt_upper_bound; [lia|]. rewrite Nat2N.inj_succ, N.pow_succ_r' in H. lia.
Qed.

Lemma number_shortest n : shortest n (number 10 n).
Proof.
  split; [apply number_digits; lia|].
  destruct (N.eq_dec n 0) as [->|Z]; [left; reflexivity|right]. unfold number.
  destruct (radix_head 10 ltac:(lia) (S (N.to_nat (N.log2 n))) n []) as (d & r & E & D); [|exact Z|].
  - rewrite Nat2N.inj_succ, N2Nat.id. eapply N.lt_le_trans with (2 ^ N.succ (N.log2 n))%N.
    + apply N.log2_spec. lia.
    + apply N.pow_le_mono_l. lia.
  - exists (digit_char d), r. split; [exact E|]. intros X.
    assert (Y : forall k, k < 9 -> digit_char (N.of_nat (S k)) <> "0"%byte).
    { intros k Hk. do 9 (destruct k as [|k]; [discriminate|]). lia. }
    apply (Y (N.to_nat d - 1)); [lia|]. now replace (N.of_nat (S (N.to_nat d - 1))) with d by lia.
Qed.

Lemma printf_d_spec n : exists z k, (- 2 ^ 31 <= z < 2 ^ 31)%Z /\ Z.of_N n = (z + k * 2 ^ 32)%Z /\ signed_decimal z (printf_d n).
Proof.
  unfold printf_d. cbv zeta. pose proof (N.mod_upper_bound n (2 ^ 32) ltac:(lia)) as B. pose proof (N.div_mod n (2 ^ 32) ltac:(lia)) as D.
  set (u := (n mod 2 ^ 32)%N) in *. destruct (N.ltb_spec u (2 ^ 31)) as [L|L].
  - exists (Z.of_N u), (Z.of_N (n / 2 ^ 32)). splits; [lia|lia|lia|]. left. split; [lia|]. rewrite N2Z.id. apply number_shortest.
  - exists (Z.of_N u - 2 ^ 32)%Z, (Z.of_N (n / 2 ^ 32) + 1)%Z. splits; [lia|lia|lia|]. right. split; [lia|].
    exists (number 10 (2 ^ 32 - u)). split; [reflexivity|]. replace (Z.to_N _) with (2 ^ 32 - u)%N by lia. apply number_shortest.
Qed.

Lemma filter_described f : described f (dump_filter f).
Proof.
  unfold dump_filter.
  set (c := match f_builtin f, f_filename f with Some b, _ => _ | None, Some n => _ | None, None => _ end).
  assert (C : if_any 2 (table_of f) c).
  { unfold c. destruct (f_builtin f) as [b|] eqn:B; [left; exists (bs "builtin table: " ++ b); split; [now constructor|reflexivity]|].
    destruct (f_filename f) as [n|] eqn:Fn; [left; exists (bs "translation table: " ++ n); split; [now constructor|reflexivity]|].
    right. split; [|reflexivity]. intros t H. destruct H; congruence. }
  clearbody c.
  assert (K : forall b m, method_name (f_cleaner f) = Some m -> if_any 2 (parameter_of f) b ->
              described f ((indented 1 (bs "cleaner: " ++ m) ++ b) ++ c)).
  { intros b m M P. exists (indented 1 (bs "cleaner: " ++ m)), b, c. split; [now rewrite <- app_assoc|]. splits; auto.
    left. exists (bs "cleaner: " ++ m). split; [exists m; auto|reflexivity]. }
  assert (N : f_cleaner f <> F_wipeup -> f_cleaner f <> F_max_length -> if_any 2 (parameter_of f) []).
  { intros N1 N2. right. split; [|reflexivity]. intros t H. destruct H; congruence. }
  assert (W : f_cleaner f = F_wipeup -> if_any 2 (parameter_of f)
                (if f_remove_trailing f then indented 2 (bs "remove trailing: yes") else indented 2 (bs "remove trailing: no"))).
  { intros W. left. destruct (f_remove_trailing f) eqn:R; eexists; (split; [|reflexivity]); [now apply pm_trailing|now apply pm_no_trailing]. }
  assert (L : f_cleaner f = F_max_length -> if_any 2 (parameter_of f) (indented 2 (bs "length: " ++ printf_d (f_max_length f)))).
  { intros L. left. eexists. split; [|reflexivity]. destruct (printf_d_spec (f_max_length f)) as (z & k & Z1 & Z2 & Z3).
    now apply (pm_length f z k). }
  destruct (f_cleaner f) eqn:E; try exact (K [] _ eq_refl (N ltac:(discriminate) ltac:(discriminate))).
  - exact (K _ _ eq_refl (L eq_refl)).
  - destruct (f_remove_trailing f); exact (K _ _ eq_refl (W eq_refl)).
  - exists [], [], c. splits; auto; [|apply N; discriminate].
    right. rewrite E. split; [|reflexivity]. intros t (m & M & _). discriminate.
Qed.

(** ** The text printed by -L *)

Lemma dump_text c name (verbose : bool) : sourced (cf_sequences c) ->
  exists entries,
    marked (if verbose then long_entry dump_filter else short_entry) (cf_sequences c) name entries /\
    dump_config_file c (chosen_position (cf_sequences c) name) verbose =
    Ok ((if verbose then paragraphs entries else bs "available sequences:" ++ [eol] ++ concat entries) ++ ignore_section (cf_ignore c)).
Proof.
  intros H. eexists. split; [apply entries_marked|].
  unfold dump_config_file. destruct verbose.
  - rewrite dump_long by exact H. cbn [bind]. f_equal. cbn [Nat.ltb Nat.leb]. destruct (cf_sequences c); reflexivity.
  - rewrite dump_short. cbn [bind]. rewrite flat_map_concat_map, map_id, <- !app_assoc. reflexivity.
Qed.


Lemma verbose_iff b e ws o : granted b e ws o -> (0 <? o_verbose o)%N = existsb is_verbose ws.
Proof.
  intros G. rewrite (g_verbose _ _ _ _ G). clear G. induction ws as [|w ws IH]; [reflexivity|]. cbn [filter existsb].
  destruct (is_verbose w); [reflexivity|exact IH].
Qed.

Lemma list_mode fuel s argv ws fs :
  asks (posix_env s) (tl argv) ws fs -> Forall (fun w => ~ parting w) ws -> In List_sequences ws ->
  exists file name, last_of config_named ws file /\ wanted_sequence s ws name /\
    match config_file_load_says (m_env s) file with
    | (said, Ok c) =>
      exists describe entries, (forall f, described f (describe f)) /\
        marked (if existsb is_verbose ws then long_entry describe else short_entry) (cf_sequences c) name entries /\
        main fuel s argv =
        told said (Call (Print Stdout ((if existsb is_verbose ws then paragraphs entries
                                        else bs "available sequences:" ++ [eol] ++ concat entries) ++ ignore_section (cf_ignore c)))
                     (fun _ => Stop (StopExit EXIT_SUCCESS)))
    | (said, Exit n) => main fuel s argv = told said (Stop (StopExit n))
    | (said, UB w) => main fuel s argv = told said (Stop (StopUB w))
    end.
Proof.
  intros A N L. rewrite main_eq.
  destruct (options_read (m_platform s) (e_getenv (m_env s)) (m_package s) argv ws fs A N) as (o & G & Pf & E & _).
  rewrite (proj2 (g_list _ _ _ _ G) L) in E. apply (options_silent _ _ _ _ _ _ _ _ A N) in E. rewrite E. clear E.
  cbn [print_out done quietly fst talking told lift snd pbind].
  exists (o_check_config_file o), (o_sequence_name o). split; [apply (g_config _ _ _ _ G)|]. split; [apply (g_sequence _ _ _ _ G)|].
  rewrite talking_bind. destruct (config_file_load_mirrors (m_env s) (o_check_config_file o)) as [_ M]. rewrite same_res in M.
  destruct (config_file_load_says (m_env s) (o_check_config_file o)) as [said [c|w|n]]; cbn [fst snd] in *; [|reflexivity..].
  unfold main_rest. destruct (ignore_list_ok c) as (ign & -> & _). cbn [lift pbind].
  rewrite (proj2 (g_list _ _ _ _ G) L), (verbose_iff _ _ _ _ G).
  destruct (config_file_load (m_env s) (o_check_config_file o)) as [printed r] eqn:EL. cbn [snd] in M. subst r.
  destruct (dump_text c (o_sequence_name o) (existsb is_verbose ws) (load_sourced _ _ _ _ EL)) as (entries & Mk & D).
  exists dump_filter, entries. split; [exact filter_described|]. split; [exact Mk|]. rewrite D. reflexivity.
Qed.

Lemma unmarked entry seqs name : marked entry seqs name (map (entry ""%string) seqs) ->
  (forall s, entry ""%string s <> entry " (*)"%string s) ->
  sequence_choose_default seqs name = None.
Proof.
  intros [[N _]|(b & s & a & -> & _ & _ & E)] D; [exact N|].
  rewrite map_app in E. apply app_inv_head in E. cbn [map] in E. injection E as E. now elim (D s).
Qed.
