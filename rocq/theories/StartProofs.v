(** * What the program prints while it starts: the results are the same *)

From Verif Require Import Base BaseFacts Stdio Table ParseTable ParseTableProofs Filter Spoof Filelist Prog ProgFacts Warnings WarningsProofs
  File ConfigLex ConfigParse ConfigLoad Options Startup Main.

Local Open Scope nat_scope.

(** What goes to standard output. *)
Definition stdout_of (l : list (stream * str)) : str :=
  flat_map (fun x => match fst x with Stdout => snd x | Stderr => [] end) l.

Lemma stdout_app a b : stdout_of (a ++ b) = stdout_of a ++ stdout_of b.
Proof. apply flat_map_app. Qed.

(** [m] prints what [w] prints, and possibly messages; [f] of its result is the result of
    [w]. *)
Definition mirrors {A B} (f : A -> B) (m : talk A) (w : wres B) : Prop :=
  stdout_of (fst m) = fst w /\ (do a <- snd m; Ok (f a)) = snd w.

Definition same {A} (a : A) : A := a.

Lemma mirrors_bind {A B C D} (f : A -> B) (g : C -> D) m w k j : mirrors f m w -> (forall a, mirrors g (k a) (j (f a))) ->
  mirrors g (tbind m k) (wbind w j).
Proof.
  intros [H1 H2] K. unfold mirrors. rewrite talk_texts, talk_result, stdout_app, H1. unfold wbind. rewrite <- H2.
  destruct (snd m) as [a|u|n]; cbn [bind]; [|split; [apply app_nil_r|reflexivity]..].
  destruct (K a) as [K1 K2]. rewrite K1. cbn [fst snd]. auto.
Qed.

Lemma mirrors_done {A B} (f : A -> B) a : mirrors f (done a) ([], Ok (f a)).
Proof. split; reflexivity. Qed.

Lemma mirrors_quiet {A B} (f : A -> B) r : mirrors f (quietly r) ([], do a <- r; Ok (f a)).
Proof. split; reflexivity. Qed.

Lemma print_out_text text : stdout_of (fst (print_out text)) = text /\ snd (print_out text) = Ok tt.
Proof. destruct text; split; try reflexivity. cbn. now rewrite app_nil_r. Qed.

Lemma same_res {A} (r : res A) : (do a <- r; Ok (same a)) = r.
Proof. now destruct r. Qed.

Lemma mirrors_aloud {A} (w : wres A) : mirrors same (aloud w) w.
Proof.
  unfold mirrors, aloud. destruct (print_out_text (fst w)) as [T R]. rewrite talk_texts, talk_result, stdout_app, T, R.
  cbn. now rewrite app_nil_r, same_res.
Qed.

Lemma mirrors_complain {A B} (f : A -> B) text k w : mirrors f k w -> mirrors f (let% _ := complain text in k) w.
Proof. intros [H1 H2]. unfold mirrors. now rewrite talk_texts, talk_result. Qed.

Lemma mirrors_print {A B} (f : A -> B) text k w : mirrors f k w ->
  mirrors f (let% _ := print_out text in k) (text ++ fst w, snd w).
Proof.
  intros [H1 H2]. unfold mirrors. destruct (print_out_text text) as [T R]. rewrite talk_texts, talk_result, stdout_app, T, R.
  cbn [bind fst snd]. now rewrite H1.
Qed.

(** ** The command line *)

Lemma cluster_same prog letters s :
  map fst (fst (cluster_says prog letters s)) = fst (cluster letters s) /\ snd (cluster_says prog letters s) = snd (cluster letters s).
Proof.
  induction s as [|c r IH]; [split; reflexivity|]. cbn [cluster_says cluster].
  destruct (takes_argument letters c) as [[|]|].
  - destruct r; split; reflexivity.
  - destruct (cluster_says prog letters r), (cluster letters r). cbn in *. destruct IH as [-> ->]. auto.
  - destruct (cluster_says prog letters r), (cluster letters r). cbn in *. destruct IH as [-> ->]. auto.
Qed.

Lemma long_code_same prog longopts arg : fst (long_code_says prog longopts arg) = long_code longopts arg.
Proof.
  unfold long_code_says, long_code, long_match. destruct (upto_equals arg) as [name e].
  destruct (find _ longopts) as [o|]; [now destruct e|].
  destruct (filter _ longopts) as [|o [|o' l]]; try reflexivity. now destruct e.
Qed.

Lemma getopt_same prog letters longopts posix : forall n args, length args <= n -> forall sk,
  (map fst (fst (getopt_long_says prog letters longopts posix args sk)), snd (getopt_long_says prog letters longopts posix args sk)) =
  getopt_long letters longopts posix args sk.
Proof.
  induction n as [|n IH]; intros args L sk.
  { destruct args; [reflexivity|simpl in L; lia]. }
  destruct args as [|a rest]; [reflexivity|]. simpl in L. cbn [getopt_long_says getopt_long].
  assert (R : forall sk, (map fst (fst (getopt_long_says prog letters longopts posix rest sk)),
                          snd (getopt_long_says prog letters longopts posix rest sk)) = getopt_long letters longopts posix rest sk)
    by (intros; apply IH; lia).
  destruct a as [|c [|d r]]; try (destruct posix; [reflexivity|apply R]).
  destruct (negb (beq c "-")); [destruct posix; [reflexivity|apply R]|].
  destruct (beq d "-").
  - destruct r as [|x r]; [reflexivity|]. rewrite <- R.
    destruct (getopt_long_says prog letters longopts posix rest sk) as [l fs]. cbn [fst snd map]. now rewrite long_code_same.
  - destruct (cluster_same prog letters (d :: r)) as [C1 C2].
    destruct (cluster_says prog letters (d :: r)) as [codes p], (cluster letters (d :: r)) as [codes' p'].
    cbn [fst snd] in C1, C2. subst codes' p'. destruct p as [p|].
    + destruct rest as [|v rest]; [cbn [fst snd]; now rewrite map_app|].
      simpl in L. rewrite <- IH by lia. destruct (getopt_long_says prog letters longopts posix rest sk) as [l fs].
      cbn [fst snd]. now rewrite map_app.
    + rewrite <- R. destruct (getopt_long_says prog letters longopts posix rest sk) as [l fs]. cbn [fst snd]. now rewrite map_app.
Qed.

Lemma option_code_mirrors pkg c o : mirrors same (option_code_says pkg c o) (option_code pkg c o).
Proof.
  unfold option_code_says. destruct c as [l v|n]; [|apply mirrors_aloud].
  destruct (existsb (beq l) (bs "hfLnrsvV?")) eqn:E; [apply mirrors_aloud|].
  apply mirrors_complain. cbn [existsb bs list_byte_of_string] in E. unfold option_code.
  repeat match goal with |- context [if beq l ?x then _ else _] => destruct (beq l x) eqn:?X end;
    try (exfalso; cbn in E; repeat match goal with H : beq l _ = true |- _ => rewrite H in E end; rewrite ?orb_true_r in E; cbn in E; discriminate).
  apply (mirrors_quiet same (Exit EXIT_FAILURE)).
Qed.

Lemma option_codes_mirrors pkg cs : forall o, mirrors same (option_codes_says pkg cs o) (option_codes pkg (map fst cs) o).
Proof.
  induction cs as [|[c m] cs IH]; intros o; [apply (mirrors_done same)|]. cbn [option_codes_says map fst option_codes].
  assert (X : mirrors same (let% o := option_code_says pkg c o in option_codes_says pkg cs o)
                (wbind (option_code pkg c o) (option_codes pkg (map fst cs)))).
  { eapply mirrors_bind; [apply option_code_mirrors|]. intros a. apply IH. }
  destruct m as [m|]; [now apply mirrors_complain|].
  destruct X as [X1 X2]. split; [|rewrite talk_result; exact X2]. rewrite talk_texts. exact X1.
Qed.

Lemma parse_options_mirrors pf getenv pkg argv :
  mirrors same (parse_options_says pf getenv pkg argv) (parse_options_getopt pf getenv pkg argv).
Proof.
  unfold parse_options_says, parse_options_getopt. cbv zeta.
  set (posix := match getenv (bs "POSIXLY_CORRECT") with Some _ => true | None => false end).
  pose proof (getopt_same (program_name argv) letters longopts posix (length (tl argv)) (tl argv) (le_n _) []) as G.
  destruct (getopt_long_says (program_name argv) letters longopts posix (tl argv) []) as [codes files]. cbn [fst snd] in G. rewrite <- G.
  eapply mirrors_bind; [apply option_codes_mirrors|]. intros o. unfold same.
  destruct (o_list_sequences o); [apply (mirrors_done same)|]. destruct files as [|f files].
  - destruct (o_is_inline_mode o); [apply (mirrors_done same)|].
    pose proof (mirrors_print (@same options_t) (usage o) (quietly (Exit EXIT_FAILURE)) ([], Exit EXIT_FAILURE) (mirrors_quiet same (Exit EXIT_FAILURE))) as P.
    cbn [fst snd] in P. rewrite app_nil_r in P. exact P.
  - pose proof (mirrors_quiet same (do l <- put_files filelist_init (f :: files); Ok (set_files l o))) as P. rewrite same_res in P. exact P.
Qed.

(** ** Configuration files *)

Lemma lex_round_same input : (do x <- lex_round_says input; let '(l, _, _, rest) := x in Ok (l, rest)) = lex_round input.
Proof.
  unfold lex_round_says, lex_round. destruct (best_match rules input None) as [[r n]|]; [|reflexivity].
  now destruct (lex_action r (firstn n input)).
Qed.

Lemma yyerror_mirrors {A B} (f : A -> B) filename line text : mirrors f (yyerror_says filename line text) ([], Exit EXIT_FAILURE).
Proof. apply mirrors_complain. apply (mirrors_quiet f (Exit EXIT_FAILURE)). Qed.

Lemma yyparse_mirrors filename : forall fuel p s line input,
  mirrors fst (yyparse_says fuel filename p s line input) (yyparse fuel filename p s input).
Proof.
  induction fuel as [|fuel IH]; intros p s line input.
  { cbn [yyparse_says yyparse]. destruct p; try apply yyerror_mirrors. apply (mirrors_done fst). }
  destruct input as [|c input]; cbn [yyparse_says yyparse].
  { destruct p; try apply yyerror_mirrors. apply (mirrors_done fst). }
  rewrite <- lex_round_same. destruct (lex_round_says (c :: input)) as [[[[[printed t] text] nl] rest]|u|n]; cbn [bind].
  2,3: split; reflexivity.
  assert (X : forall k : talk (cf_state * N), (let% _ := quietly (Ok tt) in k) = k) by (intros [l [a|u|n]]; reflexivity).
  change (mirrors fst (let% _ := quietly (Ok tt) in
    (let% _ := print_out printed in
     match t with
     | None => yyparse_says fuel filename p s (line + nl) rest
     | Some t =>
       match parse_step filename p s t with
       | Some (p', s') => yyparse_says fuel filename p' s' (line + nl) rest
       | None => yyerror_says filename (line + nl) text
       end
     end)) 
    match t with
    | Some t0 => match parse_step filename p s t0 with
                 | Some (p', s') => let r := yyparse fuel filename p' s' rest in (printed ++ fst r, snd r)
                 | None => (printed, Exit EXIT_FAILURE)
                 end
    | None => let r := yyparse fuel filename p s rest in (printed ++ fst r, snd r)
    end). rewrite X.
  destruct t as [t|]; [|apply mirrors_print, IH].
  destruct (parse_step filename p s t) as [[p' s']|]; [apply mirrors_print, IH|].
  rewrite <- (app_nil_r printed) at 2. apply (mirrors_print fst printed _ ([], Exit EXIT_FAILURE)), yyerror_mirrors.
Qed.

Lemma parse_config_file_mirrors files filename line previous :
  mirrors fst (parse_config_file_says files filename line previous) (parse_config_file files filename previous).
Proof.
  unfold parse_config_file_says, parse_config_file. destruct (files filename) as [| |bytes].
  - apply (mirrors_done fst).
  - apply mirrors_complain. apply (mirrors_quiet fst (Exit YY_EXIT_FAILURE)).
  - eapply mirrors_bind; [apply yyparse_mirrors|]. intros [s l]. apply (mirrors_done fst (_, l)).
Qed.

Lemma config_file_load_mirrors env file : mirrors same (config_file_load_says env file) (config_file_load env file).
Proof.
  unfold config_file_load_says, config_file_load. cbv zeta.
  assert (P : forall path l c, mirrors fst (parse_if_short_says (e_files env) path l c) (parse_if_short (e_files env) path c)).
  { intros path l c. unfold parse_if_short_says, parse_if_short. destruct (_ <? _)%N; [apply parse_config_file_mirrors|apply (mirrors_done fst (c, l))]. }
  assert (O : forall path l c, mirrors fst (or_else_says (e_files env) path l c) (or_else (e_files env) path c)).
  { intros path l [c|]; [apply (mirrors_done fst (Some c, l))|apply parse_config_file_mirrors]. }
  destruct file as [path|].
  - eapply mirrors_bind; [apply parse_config_file_mirrors|]. intros [[c|] l]; cbn [fst]; [apply (mirrors_done same)|].
    apply mirrors_complain. apply (mirrors_quiet same (Exit EXIT_FAILURE)).
  - eapply (mirrors_bind fst). { destruct (e_sysconfdir env); [apply P|apply (mirrors_done fst (None, 1%N))]. }
    intros [c1 l1]; cbn [fst]. eapply (mirrors_bind fst); [apply O|].
    intros [c2 l2]; cbn [fst]. eapply (mirrors_bind fst); [apply O|].
    intros [c3 l3]; cbn [fst]. eapply (mirrors_bind fst). { destruct (e_getenv env (bs "HOME")); [apply P|apply (mirrors_done fst (c3, l3))]. }
    intros [c4 l4]; cbn [fst]. eapply (mirrors_bind fst). { destruct (e_getenv env (bs "XDG_CONFIG_HOME")); [apply P|apply (mirrors_done fst (c4, l4))]. }
    intros [[c5|] l5]; cbn [fst]; apply (mirrors_done same).
Qed.

(** ** Tables: nothing on standard output *)

Lemma rejected_row locale work st : parse_table_line locale work st = Ok None -> exists code text, row_on work = Ok (code, text).
Proof.
  unfold parse_table_line, row_on. destruct (match work with c :: _ => beq c "#" | [] => false end); [discriminate|].
  destruct (negb (pt_inside st)).
  - destruct (scan_word work) as [[w n]|].
    + destruct (store_parsed w) as [p| |]; cbn [bind]; try discriminate.
      destruct (strncaseeq 5 p _); [destruct (at_offset work _) as [[|]| |]; cbn [bind]; try discriminate; now destruct (scan_text _ _)|].
      destruct (strncaseeq 7 p _); [|discriminate].
      destruct (at_offset work _) as [[|]| |]; cbn [bind]; try discriminate; now destruct (scan_text _ _).
    + cbn [bind]. destruct (strncaseeq 5 [] _); [destruct (at_offset work _) as [[|]| |]; cbn [bind]; try discriminate; now destruct (scan_text _ _)|].
      destruct (strncaseeq 7 [] _); [|discriminate].
      destruct (at_offset work _) as [[|]| |]; cbn [bind]; try discriminate; now destruct (scan_text _ _).
  - destruct (scan_int work) as [[code n]|e].
    + destruct (code <? 0)%Z.
      * destruct (scan_word work) as [[w m]|]; [|discriminate]. now destruct (store_parsed w).
      * destruct (at_offset work (Some n)) as [r| |]; cbn [bind]; try discriminate. destruct r as [|c r]; [discriminate|].
        destruct (scan_text (c :: r) []) as [text| |]; cbn [bind]; try discriminate. eauto.
    + change (-1 <? 0)%Z with true. cbv iota. destruct (scan_word work) as [[w m]|]; [|discriminate]. now destruct (store_parsed w).
Qed.

(** Messages on stderr only, with this result. *)
Definition quiet_like {A} (m : talk A) (r : res A) : Prop := mirrors same m ([], r).

Lemma quiet_like_eq {A} (m : talk A) r : quiet_like m r <-> stdout_of (fst m) = [] /\ snd m = r.
Proof. unfold quiet_like, mirrors. now rewrite same_res. Qed.

Lemma quiet_bind {A B} (m : talk A) (k : A -> talk B) r j : quiet_like m r -> (forall a, quiet_like (k a) (j a)) ->
  quiet_like (tbind m k) (do a <- r; j a).
Proof.
  intros H K. pose proof (mirrors_bind same same m ([], r) k (fun a => ([], j a)) H K) as X. unfold quiet_like.
  unfold wbind in X. cbn [fst snd] in X. now destruct r.
Qed.

Lemma quiet_done {A} (a : A) : quiet_like (done a) (Ok a).
Proof. apply (mirrors_done same). Qed.

Lemma quiet_complain {A} text (k : talk A) r : quiet_like k r -> quiet_like (let% _ := complain text in k) r.
Proof. apply mirrors_complain. Qed.

Lemma quiet_exit {A} n : quiet_like (@quietly A (Exit n)) (Exit n).
Proof. apply (mirrors_quiet same (Exit n)). Qed.

Lemma parse_table_loop_like locale : forall fuel input st,
  quiet_like (parse_table_loop_says fuel locale input st) (parse_table_loop fuel locale input st).
Proof.
  induction fuel as [|fuel IH]; intros input st; cbn [parse_table_loop_says parse_table_loop]; [apply quiet_done|].
  destruct (next_line input) as [[bytes rest]|]; [|apply quiet_done].
  destruct (parse_table_line locale (cstr bytes) st) as [[st'|]|u|n] eqn:E; cbn [bind].
  - pose proof (IH rest st') as X. unfold quiet_like in *. destruct X as [X1 X2]. split.
    + rewrite talk_texts. exact X1.
    + rewrite talk_result. exact X2.
  - destruct (rejected_row _ _ _ E) as (code & text & R). rewrite R. split; reflexivity.
  - split; reflexivity.
  - split; reflexivity.
Qed.

Lemma table_at_like s path : quiet_like (table_at_says s path) (Ok (table_at s path)).
Proof.
  unfold table_at_says, table_at. destruct (e_files (m_env s) path) as [| |bytes].
  - destruct (m_denied s path) as [m|]; [apply quiet_complain|]; apply quiet_done.
  - destruct (parse_table_total (m_locale s) []) as [t E]. rewrite E. rewrite <- E. apply parse_table_loop_like.
  - destruct (parse_table_total (m_locale s) bytes) as [t E]. rewrite E. rewrite <- E. apply parse_table_loop_like.
Qed.

Section review.
  Variable datadir : option str.
  Variable says : str -> talk (option table).
  Variable parse : str -> option table.
  Hypothesis H : forall path, quiet_like (says path) (Ok (parse path)).

  Lemma try_table_like path : quiet_like (try_table_says says path) (Ok (try_table parse path)).
  Proof. unfold try_table_says, try_table. destruct (_ <? _)%N; [apply H|apply quiet_done]. Qed.

  Lemma quiet_bind_ok {A B} (m : talk A) a (k : A -> talk B) r : quiet_like m (Ok a) -> quiet_like (k a) r -> quiet_like (tbind m k) r.
  Proof.
    rewrite !quiet_like_eq. intros [H1 H2] [K1 K2]. rewrite talk_texts, talk_result, H2, stdout_app, H1, K1. auto.
  Qed.

  Lemma filter_find_table_like name : quiet_like (filter_find_table_says datadir says name) (Ok (filter_find_table datadir parse name)).
  Proof.
    unfold filter_find_table_says, filter_find_table. cbv zeta.
    eapply quiet_bind_ok with (a := match datadir with Some d => try_table parse (d ++ bs "/detox/" ++ name) | None => None end).
    { destruct datadir; [apply try_table_like|apply quiet_done]. }
    destruct (match datadir with Some d => try_table parse (d ++ bs "/detox/" ++ name) | None => None end); [apply quiet_done|].
    eapply quiet_bind_ok; [apply try_table_like|].
    destruct (try_table parse (bs "/usr/share/detox/" ++ name)); [apply quiet_done|]. apply try_table_like.
  Qed.

  Lemma filter_load_table_like f : quiet_like (filter_load_table_says datadir says f) (filter_load_table datadir parse f).
  Proof.
    unfold filter_load_table_says, filter_load_table. cbv zeta.
    destruct (default_table_name (f_cleaner f)) as [name|]; [|apply quiet_done].
    destruct (f_builtin f) as [b|].
    - destruct (filter_load_builtin_by_filename b); [apply quiet_done|]. apply quiet_complain, quiet_exit.
    - destruct (f_filename f) as [file|].
      + eapply quiet_bind_ok; [apply H|]. destruct (parse file); [apply quiet_done|]. apply quiet_complain, quiet_exit.
      + eapply quiet_bind_ok; [apply filter_find_table_like|]. destruct (filter_find_table datadir parse name); [apply quiet_done|].
        destruct (filter_load_builtin (f_cleaner f)); [apply quiet_done|]. apply quiet_complain, quiet_exit.
  Qed.

  Lemma sequence_review_like s : quiet_like (sequence_review_says datadir says s) (sequence_review datadir parse s).
  Proof.
    unfold sequence_review_says, sequence_review. apply quiet_bind; [|intros; apply quiet_done].
    generalize (s_filters s) as fs. induction fs as [|f fs IH]; [apply quiet_done|]. cbn [review_filters_says review_filters].
    apply quiet_bind; [apply filter_load_table_like|]. intros t. apply quiet_bind; [exact IH|]. intros; apply quiet_done.
  Qed.
End review.

Lemma review_like s seq :
  quiet_like (sequence_review_says (e_datadir (m_env s)) (table_at_says s) seq) (sequence_review (e_datadir (m_env s)) (table_at s) seq).
Proof. apply sequence_review_like, table_at_like. Qed.

(** ** What is printed where *)

Definition speaks {A} (P : stream * str -> Prop) (m : talk A) : Prop := Forall P (fst m).

Lemma speaks_bind {A B} P (m : talk A) (k : A -> talk B) : speaks P m -> (forall a, speaks P (k a)) -> speaks P (tbind m k).
Proof.
  intros H K. unfold speaks. rewrite talk_texts. apply Forall_app. split; [exact H|].
  destruct (snd m); [apply K|constructor..].
Qed.

Lemma speaks_quiet {A} P (r : res A) : speaks P (quietly r).
Proof. constructor. Qed.

Lemma speaks_complain (P : stream * str -> Prop) text : (forall t, P (Stderr, t)) -> speaks P (complain text).
Proof. intros H. repeat constructor. apply H. Qed.

Lemma lex_round_prints input l text n rest : lex_round_says input = Ok (l, text, n, rest) ->
  match l with Lexed printed _ => printed = [] \/ printed = unterminated end.
Proof.
  unfold lex_round_says. destruct (best_match rules input None) as [[r m]|]; [|now injection 1 as <- _ _ _; left].
  destruct (lex_action r (firstn m input)) as [[printed t]|w|e] eqn:E; cbn [bind]; try discriminate. injection 1 as <- _ _ _.
  destruct r; cbn [lex_action] in E; try (injection E as <- _; now left).
  unfold lex_qstring in E. repeat match type of E with context [if ?b then _ else _] => destruct b end;
    try discriminate; injection E as <- _; auto.
Qed.

Definition only_unterminated (x : stream * str) : Prop := fst x = Stdout -> snd x = unterminated.

Lemma stderr_allowed t : only_unterminated (Stderr, t).
Proof. intros E. discriminate E. Qed.

Lemma yyparse_speaks filename : forall fuel p s line input, speaks only_unterminated (yyparse_says fuel filename p s line input).
Proof.
  assert (Y : forall A line text, speaks only_unterminated (@yyerror_says A filename line text)).
  { intros A line text. apply speaks_bind; [apply speaks_complain, stderr_allowed|intros _; apply speaks_quiet]. }
  assert (E : forall p s line, speaks only_unterminated (match p with P_top => done (s, line) | _ => @yyerror_says (cf_state * N) filename line [] end)).
  { intros p s line. destruct p; try apply Y. apply speaks_quiet. }
  induction fuel as [|fuel IH]; intros p s line input; cbn [yyparse_says]; [apply E|]. destruct input as [|b input]; [apply E|].
  destruct (lex_round_says (b :: input)) as [[[[[printed t] text] n] rest]|w|e] eqn:L; [|apply Forall_nil..].
  apply lex_round_prints in L. cbn [quietly tbind fst snd app].
  match goal with |- speaks _ (let (_, _) := ?m in _) => assert (G : speaks only_unterminated m); [|destruct m; exact G] end.
  apply speaks_bind.
  - destruct L as [->| ->]; [apply Forall_nil|]. repeat constructor.
  - intros _. destruct t as [t|]; [|apply IH]. destruct (parse_step filename p s t) as [[p' s']|]; [apply IH|apply Y].
Qed.

Lemma parse_config_file_speaks files filename line previous :
  speaks only_unterminated (parse_config_file_says files filename line previous).
Proof.
  unfold parse_config_file_says. destruct (files filename); [apply speaks_quiet| |].
  - apply speaks_bind; [apply speaks_complain, stderr_allowed|intros _; apply speaks_quiet].
  - apply speaks_bind; [apply yyparse_speaks|intros [s l]; apply speaks_quiet].
Qed.

Lemma config_load_speaks env file : speaks only_unterminated (config_file_load_says env file).
Proof.
  unfold config_file_load_says. destruct file as [path|].
  - apply speaks_bind; [apply parse_config_file_speaks|]. intros [[c|] l]; [apply speaks_quiet|].
    apply speaks_bind; [apply speaks_complain, stderr_allowed|intros _; apply speaks_quiet].
  - assert (Sh : forall p l c, speaks only_unterminated (parse_if_short_says (e_files env) p l c)).
    { intros p l c. unfold parse_if_short_says. destruct (_ <? _)%N; [apply parse_config_file_speaks|apply speaks_quiet]. }
    assert (Oe : forall p l c, speaks only_unterminated (or_else_says (e_files env) p l c)).
    { intros p l [c|]; [apply speaks_quiet|apply parse_config_file_speaks]. }
    apply speaks_bind; [destruct (e_sysconfdir env); [apply Sh|apply speaks_quiet]|]. intros [c1 l1].
    apply speaks_bind; [apply Oe|]. intros [c2 l2].
    apply speaks_bind; [apply Oe|]. intros [c3 l3].
    apply speaks_bind; [destruct (e_getenv env _); [apply Sh|apply speaks_quiet]|]. intros [c4 l4].
    apply speaks_bind; [destruct (e_getenv env _); [apply Sh|apply speaks_quiet]|]. intros [[c5|] l5]; apply speaks_quiet.
Qed.

Definition to_stderr (x : stream * str) : Prop := fst x = Stderr.

Lemma table_at_speaks s path : speaks to_stderr (table_at_says s path).
Proof.
  assert (L : forall locale fuel input st, speaks to_stderr (parse_table_loop_says fuel locale input st)).
  { intros locale. induction fuel as [|fuel IH]; intros input st; cbn [parse_table_loop_says]; [apply speaks_quiet|].
    destruct (next_line input) as [[bytes rest]|]; [|apply speaks_quiet].
    apply speaks_bind; [apply speaks_quiet|]. intros [st'|]; [apply IH|].
    apply speaks_bind; [apply speaks_quiet|]. intros [code text].
    apply speaks_bind; [now apply speaks_complain|intros _; apply speaks_quiet]. }
  unfold table_at_says. destruct (e_files (m_env s) path); [|apply L..]. destruct (m_denied s path); [|apply speaks_quiet].
  apply speaks_bind; [now apply speaks_complain|intros _; apply speaks_quiet].
Qed.

Lemma review_speaks s seq : speaks to_stderr (sequence_review_says (e_datadir (m_env s)) (table_at_says s) seq).
Proof.
  assert (T : forall p, speaks to_stderr (try_table_says (table_at_says s) p)).
  { intros p. unfold try_table_says. destruct (_ <? _)%N; [apply table_at_speaks|apply speaks_quiet]. }
  assert (X : forall A t, speaks to_stderr (let% _ := complain t in @quietly A (Exit EXIT_FAILURE))).
  { intros A t. apply speaks_bind; [now apply speaks_complain|intros _; apply speaks_quiet]. }
  assert (F : forall f, speaks to_stderr (filter_load_table_says (e_datadir (m_env s)) (table_at_says s) f)).
  { intros f. unfold filter_load_table_says. destruct (default_table_name (f_cleaner f)) as [name|]; [|apply speaks_quiet].
    destruct (f_builtin f) as [b|].
    { destruct (filter_load_builtin_by_filename b); [apply speaks_quiet|apply X]. }
    destruct (f_filename f) as [file|].
    { apply speaks_bind; [apply table_at_speaks|]. intros [t|]; [apply speaks_quiet|apply X]. }
    apply speaks_bind.
    - unfold filter_find_table_says. apply speaks_bind; [destruct (e_datadir (m_env s)); [apply T|apply speaks_quiet]|].
      intros [t|]; [apply speaks_quiet|]. apply speaks_bind; [apply T|]. intros [t|]; [apply speaks_quiet|apply T].
    - intros [t|]; [apply speaks_quiet|]. destruct (filter_load_builtin (f_cleaner f)); [apply speaks_quiet|apply X]. }
  unfold sequence_review_says. apply speaks_bind; [|intros fs; apply speaks_quiet].
  induction (s_filters seq) as [|f fs IH]; cbn [review_filters_says]; [apply speaks_quiet|].
  apply speaks_bind; [apply F|]. intros t. apply speaks_bind; [apply IH|]. intros r. apply speaks_quiet.
Qed.
