(** * What the program says about its configuration files: proofs *)

From Verif Require Import Base BaseFacts Stdio ParseTableSpec ParseTableProofs Filter Spoof Filelist File Prog Warnings WarningsProofs
  ConfigLex ConfigParse ConfigSpec ConfigLexProofs ConfigLayoutProofs ConfigProofs ConfigLoad ConfigLoadSpec ConfigFiles ConfigLoadProofs
  Startup StartProofs StartOptions Main MainSpec DumpProofs GenSpec CheckSpec CheckProofs2 StartSpec.

Local Open Scope nat_scope.

(** ** Numbers *)

Lemma in_decimal_one n s : in_decimal n s <-> s = printf_d n.
Proof.
  split.
  - intros (z & k & Z1 & Z2 & Z3). destruct (printf_d_spec n) as (z' & k' & Z1' & Z2' & Z3').
    assert (z = z') by (clear Z3 Z3'; assert (k = k') by nia; lia). subst z'.
    destruct Z3 as [[P A]|(P & d & -> & A)], Z3' as [[P' A']|(P' & d' & E & A')]; try lia.
    + exact (shortest_one _ _ _ A' A).
    + rewrite E. f_equal. exact (shortest_one _ _ _ A' A).
  - intros ->. exact (printf_d_spec n).
Qed.

(** ** The scanner *)

Lemma lex_says_munch input s rest r printed t : munch input s rest r -> emits r s printed t ->
  lex_round_says input = Ok (Lexed printed t, s, match r with R_newline => 1%N | _ => 0%N end, rest).
Proof.
  intros M E. unfold lex_round_says. rewrite (munch_best _ _ _ _ M). destruct M as (-> & _).
  rewrite app_firstn, app_skipn, (emits_action _ _ _ _ E). reflexivity.
Qed.

Lemma lex_says_stray c rest : stray (c :: rest) -> lex_round_says (c :: rest) = Ok (Lexed [] None, [c], 0%N, rest).
Proof. intros S. unfold lex_round_says. now rewrite (stray_best _ S). Qed.

Lemma munch_match input s rest r : munch input s rest r -> matches (rule_regex r) s.
Proof.
  intros (_ & _ & (b & re & a & F & M & _) & _). assert (I : In (re, r) flex_rules) by (rewrite F, in_app_iff; simpl; auto).
  apply in_flex in I. destruct I as [-> _]. exact M.
Qed.

Lemma munch_string s d text : ~ In quote s -> ~ In newline s -> d = quote \/ d = newline ->
  munch ((quote :: s ++ [d]) ++ text) (quote :: s ++ [d]) text R_qstring.
Proof.
  intros Q N D.
  assert (F : Forall (fun c => c <> quote /\ c <> newline) s).
  { apply Forall_forall. intros c I. split; intros ->; easy. }
  eapply (munch_intro _ _ _ _ (firstn 18 rules) (skipn 19 rules)); [reflexivity| | |].
  - cbn [rule_regex]. apply matches_char_seq. exists quote, (s ++ [d]). splits; auto. apply matches_seq.
    exists s, [d]. splits; auto; [now apply matches_star|]. constructor. auto.
  - intros r' I FC M. rewrite (quote_rules _ FC) in I. simpl in I. repeat (destruct I as [I|I]; [discriminate|]). easy.
  - intros r' s' rest' _ FC M E. rewrite (quote_rules _ FC) in M. cbn [rule_regex] in M.
    apply matches_char_seq in M. destruct M as (c & y & -> & -> & M). apply matches_seq in M.
    destruct M as (x & z & -> & X & Z). apply matches_star in X. apply matches_class in Z. destruct Z as (d' & -> & Z).
    cbn [length app] in *. injection E as E. rewrite <- !app_assoc in E. rewrite !app_length. simpl.
    assert (length x <= length s); [|lia].
    eapply (prefix_length _ s); [exact E|exact X|]. simpl. destruct D as [-> | ->]; intros [H1 H2]; auto.
Qed.

Lemma lex_says_nul s d rest : In NUL s -> ~ In quote s -> ~ In newline s -> d = quote \/ d = newline ->
  lex_round_says (quote :: s ++ d :: rest) = UB ReadPastEnd.
Proof.
  intros N Q L D. pose proof (munch_string s d rest Q L D) as M. apply munch_best in M.
  cbn [app] in M. rewrite <- app_assoc in M. cbn [app] in M.
  unfold lex_round_says. rewrite M. cbn [lex_action].
  assert (F : firstn (length (quote :: s ++ [d])) (quote :: s ++ d :: rest) = quote :: s ++ [d]).
  { change (quote :: s ++ d :: rest) with ((quote :: s) ++ [d] ++ rest). rewrite app_assoc. apply app_firstn. }
  rewrite F. unfold lex_qstring. cbn [tl].
  replace (length (quote :: s ++ [d]) - 2) with (length s) by (simpl; rewrite app_length; simpl; lia).
  assert (C : forall u, In NUL u -> forall v, length (cstr (u ++ v)) < length u).
  { clear. intros u. induction u as [|c u IH]; intros I v; [easy|]. simpl. destruct (beq c NUL) eqn:B; simpl; [lia|].
    destruct I as [->|I]; [discriminate|]. specialize (IH I v). lia. }
  specialize (C s N [d]). apply Nat.ltb_lt in C. rewrite C. reflexivity.
Qed.

(** Texts of rules have no NUL in them, but for comments and strings. *)
Lemma letter_nonul c : letter c -> c <> NUL.
Proof. intros L ->. cbv in L. repeat (destruct L as [L|L]; [discriminate|]). easy. Qed.

Lemma decimal_nonul c : decimal c -> c <> NUL.
Proof. intros L ->. cbv in L. repeat (destruct L as [L|L]; [discriminate|]). easy. Qed.

Lemma forall_nonul (p : byte -> Prop) s : (forall c, p c -> c <> NUL) -> Forall p s -> nonul s.
Proof. intros H F I. rewrite Forall_forall in F. now apply (H NUL (F _ I)). Qed.

Lemma keyword_nonul s k : same_text s (keyword_text k) -> nonul s.
Proof.
  intros S. assert (N : nonul (keyword_text k)).
  { destruct k; cbv; intros H; repeat (destruct H as [H|H]; [discriminate|]); easy. }
  revert N. induction S as [|a b s l SL S IH]; intros N; [easy|]. intros [->|I].
  - apply N. left. destruct SL as [E|(n & L & [[A B]|[A B]])].
    + now symmetry.
    + exfalso. change (bN NUL) with 0%N in A. lia.
    + exfalso. change (bN NUL) with 0%N in A. lia.
  - apply IH; [|exact I]. intros J. apply N. now right.
Qed.

Lemma rule_nonul r s : matches (rule_regex r) s ->
  r = R_comment \/ r = R_qstring \/ nonul s.
Proof.
  intros M. destruct r; auto; right; right; cbn [rule_regex] in M; unfold Char in M.
  - apply matches_plus in M. destruct M as [_ M]. apply (forall_nonul _ _) in M; [exact M|]. intros c [->| ->]; discriminate.
  - apply matches_class in M. destruct M as (c & -> & ->). intros [H|[]]. discriminate.
  - apply matches_letters in M. exact (keyword_nonul _ _ M).
  - apply matches_class in M. destruct M as (c & -> & ->). intros [H|[]]. discriminate.
  - apply matches_class in M. destruct M as (c & -> & ->). intros [H|[]]. discriminate.
  - apply matches_char_seq in M. destruct M as (c & y & -> & L & M). apply matches_star in M.
    apply (forall_nonul _ _) in M.
    + intros [H|H]; [|now apply M]. subst. now apply (letter_nonul _ L).
    + intros x [X|[X| ->]]; [now apply letter_nonul|now apply decimal_nonul|discriminate].
  - apply matches_plus in M. destruct M as [_ M]. exact (forall_nonul _ _ decimal_nonul M).
  - apply matches_class in M. destruct M as (c & -> & ->). intros [H|[]]. discriminate.
Qed.

Lemma token_nonul r s printed t : matches (rule_regex r) s -> emits r s printed (Some t) -> nonul s.
Proof.
  intros M E. destruct (rule_nonul _ _ M) as [-> |[-> |N]]; [inversion E| |exact N].
  inversion E; subst; intros [H|H]; try discriminate; apply in_app_iff in H; destruct H as [H|[H|[]]]; auto; discriminate.
Qed.

(** ** Beginnings of configurations *)

(** Wherever the parser is, there is a way to the end of a rule. *)
Lemma way_out filename p : forall s, exists ts s', play filename p s ts = Some (P_top, s').
Proof.
  assert (M : forall s, exists ts s', play filename (P_methods true) s ts = Some (P_top, s')).
  { intros s. exists [T_close; T_eol]. eexists. reflexivity. }
  assert (J : forall s, exists ts s', play filename (P_ignores true) s ts = Some (P_top, s')).
  { intros s. exists [T_close; T_eol]. eexists. reflexivity. }
  assert (step : forall p t p' s s', parse_step filename p s t = Some (p', s') ->
             (forall s, exists ts s', play filename p' s ts = Some (P_top, s')) ->
             exists ts s', play filename p s ts = Some (P_top, s')).
  { intros q t q' s s' P W. destruct (W s') as (ts & s2 & H). exists (t :: ts), s2. cbn [play]. now rewrite P. }
  assert (ME : forall s, exists ts s', play filename P_method_end s ts = Some (P_top, s')).
  { intros s. eapply (step P_method_end T_eol); [reflexivity|exact M]. }
  assert (OE : forall f s, exists ts s', play filename (P_option_eol f) s ts = Some (P_top, s')).
  { intros f s. eapply (step _ T_close); [reflexivity|exact ME]. }
  assert (PO : forall f s, exists ts s', play filename (P_option f) s ts = Some (P_top, s')).
  { intros f s. eapply (step _ T_eol); [reflexivity|exact (OE f)]. }
  assert (PS : forall c s, exists ts s', play filename (P_simple c) s ts = Some (P_top, s')).
  { intros c s. eapply (step _ T_eol); [reflexivity|exact M]. }
  assert (PM : forall b s, exists ts s', play filename (P_methods b) s ts = Some (P_top, s')).
  { intros b s. eapply (step _ (T_key K_lower)); [destruct b; reflexivity|apply PS]. }
  assert (PN : forall n s, exists ts s', play filename (P_named n) s ts = Some (P_top, s')).
  { intros n s. eapply (step _ T_open); [reflexivity|apply PM]. }
  assert (PI : forall n s, exists ts s', play filename (P_ignored n) s ts = Some (P_top, s')).
  { intros n s. eapply (step _ T_eol); [reflexivity|exact J]. }
  assert (PF : forall s, exists ts s', play filename P_ignore_file s ts = Some (P_top, s')).
  { intros s. eapply (step _ (T_id [])); [reflexivity|apply PI]. }
  assert (PIS : forall b s, exists ts s', play filename (P_ignores b) s ts = Some (P_top, s')).
  { intros b s. eapply (step _ (T_key K_filename)); [destruct b; reflexivity|exact PF]. }
  destruct p; intros st; auto.
  - exists [], st. reflexivity.
  - eapply (step _ (T_id [])); [reflexivity|apply PN].
  - eapply (step _ T_eol); [reflexivity|exact M].
  - eapply (step _ T_close); [destruct c; reflexivity|exact ME].
  - eapply (step _ (T_id [])); [reflexivity|apply PO].
  - eapply (step _ (T_number 0)); [reflexivity|apply PO].
  - exists [T_eol]. eexists. reflexivity.
  - eapply (step _ T_open); [reflexivity|apply PIS].
  - exists [T_eol]. eexists. reflexivity.
Qed.

Lemma possible_play filename s ts : c_filters s = [] ->
  (possible ts <-> exists p' s', play filename P_top s ts = Some (p', s')).
Proof.
  intros F. split.
  - intros (more & ds & C). destruct (play_config _ _ filename s C F) as [P _]. rewrite play_app in P.
    destruct (play filename P_top s ts) as [[p' s']|]; [eauto|discriminate].
  - intros (p' & s' & P). destruct (way_out filename p' s') as (more & s2 & W).
    destruct (play_grammar filename (ts ++ more) s F) as [_ G]. destruct (G s2) as (ds & C & _).
    { now rewrite play_app, P. }
    exists more, ds. exact C.
Qed.

(** ** Reading a file *)

Lemma print_spoken {A} printed (m : talk A) :
  (let% _ := print_out printed in m) = (spoken printed ++ fst m, snd m).
Proof. destruct printed, m; reflexivity. Qed.

Lemma quietly_ok {A B} (a : A) (k : A -> talk B) : tbind (quietly (Ok a)) k = k a.
Proof. exact (tbind_done a k). Qed.

Lemma munch_shorter input s rest r n : munch input s rest r -> length input <= S n ->
  (exists c i, input = c :: i) /\ length rest <= n.
Proof.
  intros (E & NE & _) L. destruct s as [|c s]; [easy|]. subst input. cbn [app length] in *. rewrite app_length in L. split; [eauto|lia].
Qed.

Lemma read_runs filename input ts n said rest : read_to input ts n said rest -> forall fuel p s line p' s',
  length input <= fuel -> play filename p s ts = Some (p', s') ->
  exists fuel', length rest <= fuel' /\
    yyparse_says fuel filename p s line input =
    (said ++ fst (yyparse_says fuel' filename p' s' (line + n) rest), snd (yyparse_says fuel' filename p' s' (line + n) rest)).
Proof.
  induction 1 as [input|input sx rest ts n said rest' M R IH|input sx rest r ts n said rest' M NR E R IH
                 |input sx rest r printed t ts n said rest' M E R IH|c rest ts n said rest' X R IH];
    intros fuel p s line p' s' L P.
  - exists fuel. split; [exact L|]. cbn [play] in P. injection P as -> ->. rewrite N.add_0_r.
    now destruct (yyparse_says fuel filename p' s' line input).
  - destruct fuel as [|fuel]; [pose proof M as (-> & NE & _); destruct sx; [easy|simpl in L; lia]|].
    destruct (munch_shorter _ _ _ _ _ M L) as [(c & i & ->) LR].
    destruct (IH fuel p s (line + 1)%N p' s' LR P) as (fuel' & L' & Y). exists fuel'. split; [exact L'|].
    cbn [yyparse_says]. rewrite (lex_says_munch _ _ _ _ _ _ M (emits_newline _)), quietly_ok, print_spoken. cbn [spoken app].
    rewrite Y. cbn [fst snd]. now replace (line + (1 + n))%N with (line + 1 + n)%N by lia.
  - destruct fuel as [|fuel]; [pose proof M as (-> & NE & _); destruct sx; [easy|simpl in L; lia]|].
    destruct (munch_shorter _ _ _ _ _ M L) as [(c & i & ->) LR].
    destruct (IH fuel p s line p' s' LR P) as (fuel' & L' & Y). exists fuel'. split; [exact L'|].
    cbn [yyparse_says]. rewrite (lex_says_munch _ _ _ _ _ _ M E), quietly_ok, print_spoken. cbn [spoken app].
    replace (match r with R_newline => 1%N | _ => 0%N end) with 0%N by (now destruct r). rewrite N.add_0_r, Y. reflexivity.
  - destruct fuel as [|fuel]; [pose proof M as (-> & NE & _); destruct sx; [easy|simpl in L; lia]|].
    destruct (munch_shorter _ _ _ _ _ M L) as [(c & i & ->) LR]. cbn [play] in P.
    destruct (parse_step filename p s t) as [[p1 s1]|] eqn:PS; [|discriminate].
    destruct (IH fuel p1 s1 line p' s' LR P) as (fuel' & L' & Y). exists fuel'. split; [exact L'|].
    cbn [yyparse_says]. rewrite (lex_says_munch _ _ _ _ _ _ M E), quietly_ok, print_spoken, PS.
    replace (match r with R_newline => 1%N | _ => 0%N end) with 0%N by (destruct r; try reflexivity; inversion E).
    rewrite N.add_0_r, Y. cbn [fst snd]. now rewrite app_assoc.
  - destruct fuel as [|fuel]; [simpl in L; lia|]. assert (LR : length rest <= fuel) by (simpl in L; lia).
    destruct (IH fuel p s line p' s' LR P) as (fuel' & L' & Y). exists fuel'. split; [exact L'|].
    cbn [yyparse_says]. rewrite (lex_says_stray _ _ X), quietly_ok, print_spoken. cbn [spoken app]. rewrite N.add_0_r, Y. reflexivity.
Qed.

Lemma yyerror_words {A} filename line text : nonul text ->
  yyerror_says (A := A) filename line text = (syntax_error filename (printf_d line) text, Exit EXIT_FAILURE).
Proof. intros N. unfold yyerror_says. rewrite (cstr_nonul text N). reflexivity. Qed.

(** A result that ends the program. *)
Inductive final {A} : res A -> stop -> Prop :=
| fn_ub u : final (UB u) (StopUB u)
| fn_exit n : final (Exit n) (StopExit n).

Lemma file_runs filename n bytes said e : file_read filename n bytes said e -> forall s, c_filters s = [] ->
  match e with
  | Goes_on m => exists s', yyparse_says (length bytes) filename P_top s n bytes = (said, Ok (s', m))
  | Gives_up w => exists r, yyparse_says (length bytes) filename P_top s n bytes = (said, r) /\ final r w
  end.
Proof.
  intros H s F. destruct H as [ts k said ds R C|ts k said rest sx rest' r printed t line R P M E NP D
                               |ts k said line R P NC D|ts k said sx d rest R P N Q L Z].
  - destruct (play_config _ _ filename s C F) as [PL _].
    destruct (read_runs filename _ _ _ _ _ R _ _ _ n _ _ (le_n _) PL) as (fuel & _ & Y).
    eexists. rewrite Y. destruct fuel; cbn [yyparse_says fst snd done quietly]; now rewrite app_nil_r.
  - apply (possible_play filename s _ F) in P. destruct P as (p' & s' & PL).
    destruct (read_runs filename _ _ _ _ _ R _ _ _ n _ _ (le_n _) PL) as (fuel & LF & Y). rewrite Y.
    destruct fuel as [|fuel]; [pose proof M as (-> & NE & _); destruct sx; [easy|simpl in LF; lia]|].
    destruct (munch_shorter _ _ _ _ _ M LF) as [(c & i & ->) LR].
    cbn [yyparse_says]. rewrite (lex_says_munch _ _ _ _ _ _ M E), quietly_ok, print_spoken.
    replace (match r with R_newline => 1%N | _ => 0%N end) with 0%N by (destruct r; try reflexivity; inversion E).
    destruct (parse_step filename p' s' t) as [[p1 s1]|] eqn:PS.
    { elim NP. apply (possible_play filename s _ F). exists p1, s1. rewrite play_app, PL. cbn [play]. now rewrite PS. }
    rewrite yyerror_words by exact (token_nonul _ _ _ _ (munch_match _ _ _ _ M) E).
    apply in_decimal_one in D. subst line. cbn [fst snd]. rewrite N.add_0_r. eexists. split; [reflexivity|constructor].
  - apply (possible_play filename s _ F) in P. destruct P as (p' & s' & PL).
    destruct (read_runs filename _ _ _ _ _ R _ _ _ n _ _ (le_n _) PL) as (fuel & LF & Y). rewrite Y.
    apply in_decimal_one in D. subst line.
    assert (NN : nonul []) by (intros []).
    destruct p'; try (destruct fuel; cbn [yyparse_says]; rewrite (yyerror_words _ _ _ NN); exists (Exit EXIT_FAILURE); (split; [reflexivity|exact (fn_exit 1)])).
    destruct (play_grammar filename ts s F) as [_ G]. destruct (G _ PL) as (ds & C & _). now apply NC in C.
  - apply (possible_play filename s _ F) in P. destruct P as (p' & s' & PL).
    destruct (read_runs filename _ _ _ _ _ R _ _ _ n _ _ (le_n _) PL) as (fuel & LF & Y). rewrite Y.
    destruct fuel as [|fuel]; [simpl in LF; lia|]. cbn [yyparse_says]. rewrite lex_says_nul by assumption.
    cbn. rewrite app_nil_r. eexists. split; [reflexivity|constructor].
Qed.

(** Every file can be read, one way or another. *)
Lemma read_far : forall fuel input, length input <= fuel -> forall pre, possible pre ->
  exists ts k said rest, read_to input ts k said rest /\ possible (pre ++ ts) /\
    (rest = [] \/
     (exists s rest' r printed t, munch rest s rest' r /\ emits r s printed (Some t) /\ ~ possible (pre ++ ts ++ [t])) \/
     (exists s d rest', rest = quote :: s ++ d :: rest' /\ In NUL s /\ ~ In quote s /\ ~ In newline s /\ (d = quote \/ d = newline))).
Proof.
  assert (here : forall pre, possible pre -> possible (pre ++ [])) by (intros pre; now rewrite app_nil_r).
  induction fuel as [|fuel IH]; intros input L pre P.
  - destruct input; [|simpl in L; lia]. exists [], 0%N, [], []. splits; auto. constructor.
  - destruct input as [|c input]; [exists [], 0%N, [], []; splits; auto; constructor|].
    pose proof (best_munch (c :: input)) as B. destruct (best_match rules (c :: input) None) as [[r n]|].
    + destruct B as (s & rest & -> & M). destruct (munch_shorter _ _ _ _ _ M L) as [_ LR].
      pose proof (munch_match _ _ _ _ M) as MM.
      assert (skip : r <> R_newline -> emits r s [] None -> exists ts k said rest0, read_to (c :: input) ts k said rest0 /\ possible (pre ++ ts) /\
        (rest0 = [] \/
         (exists s rest' r printed t, munch rest0 s rest' r /\ emits r s printed (Some t) /\ ~ possible (pre ++ ts ++ [t])) \/
         (exists s d rest', rest0 = quote :: s ++ d :: rest' /\ In NUL s /\ ~ In quote s /\ ~ In newline s /\ (d = quote \/ d = newline)))).
      { intros NR E. destruct (IH rest LR pre P) as (ts & k & said & rest0 & R & PP & Z). exists ts, k, said, rest0.
        splits; auto. eapply rt_skip; eauto. }
      destruct (rule_nonul _ _ MM) as [-> |NQ]; [apply skip; [discriminate|constructor]|].
      assert (D : nonul s \/ exists x d, s = quote :: x ++ [d] /\ In NUL x /\ ~ In quote x /\ ~ In newline x /\ (d = quote \/ d = newline)).
      { destruct NQ as [-> |N]; [|now left]. cbn [rule_regex] in MM. apply matches_char_seq in MM.
        destruct MM as (q & y & -> & -> & MM). apply matches_seq in MM. destruct MM as (x & z & -> & X & Z).
        apply matches_star in X. apply matches_class in Z. destruct Z as (d & -> & Z).
        rewrite Forall_forall in X. destruct (in_dec Byte.byte_eq_dec NUL x) as [I|I].
        - right. exists x, d. splits; auto; intros H; now apply X in H.
        - left. intros [H|H]; [discriminate|]. apply in_app_iff in H. destruct H as [H|[H|[]]]; [easy|]. subst d. now destruct Z. }
      destruct D as [N|(x & d & -> & I & Q & NL & Z)].
      * destruct (action_emits _ _ MM N) as (printed & t & E). destruct t as [t|].
        -- destruct (play [] P_top (mkCf [] [] None []) (pre ++ [t])) as [[p' s']|] eqn:PL.
           ++ assert (PT : possible (pre ++ [t])) by (apply (possible_play [] (mkCf [] [] None []) _ eq_refl); eauto).
              destruct (IH rest LR _ PT) as (ts & k & said & rest0 & R & PP & W).
              exists (t :: ts), k, (spoken printed ++ said), rest0. splits.
              ** eapply rt_token; eauto.
              ** now rewrite <- app_assoc in PP.
              ** destruct W as [W|[(s1 & r1 & r2 & p1 & t1 & W1 & W2 & W3)|W]]; auto. right. left. exists s1, r1, r2, p1, t1. splits; auto.
                 now rewrite <- app_assoc in W3.
           ++ exists [], 0%N, [], (c :: input). splits; auto; [constructor|]. right. left. exists s, rest, r, printed, t. splits; auto.
              intros PT. apply (possible_play [] (mkCf [] [] None []) _ eq_refl) in PT. destruct PT as (p' & s' & PT). cbn [app] in PT.
              rewrite PL in PT. discriminate.
        -- destruct r; try (inversion E; fail); try (apply skip; [discriminate|constructor]).
           destruct (IH rest LR pre P) as (ts & k & said & rest0 & R & PP & Z). exists ts, (1 + k)%N, said, rest0. splits; auto.
           eapply rt_newline; eauto.
      * exists [], 0%N, [], (c :: input). splits; auto; [constructor|]. right. right. exists x, d, rest. splits; auto.
        destruct M as (-> & _). cbn [app]. now rewrite <- app_assoc.
    + assert (LR : length input <= fuel) by (simpl in L; lia).
      destruct (IH input LR pre P) as (ts & k & said & rest0 & R & PP & Z). exists ts, k, said, rest0. splits; auto. now apply rt_stray.
Qed.

Lemma every_file filename n bytes : exists said e, file_read filename n bytes said e.
Proof.
  assert (P0 : possible []) by (exists [], []; constructor).
  destruct (read_far (length bytes) bytes (le_n _) [] P0) as (ts & k & said & rest & R & PP & Z). cbn [app] in PP, Z.
  destruct Z as [-> |[(s & rest' & r & printed & t & M & E & NP)|(s & d & rest' & -> & N & Q & L & D)]].
  - set (s0 := mkCf [] [] None []). pose proof PP as PP'. apply (possible_play [] s0 _ eq_refl) in PP'. destruct PP' as (p' & s' & PL).
    destruct (play_grammar [] ts s0 eq_refl) as [G1 G2].
    assert (X : p' = P_top \/ p' <> P_top) by (destruct p'; auto; right; discriminate). destruct X as [-> |NT].
    + destruct (G2 _ PL) as (ds & C & _). eexists. eexists. eapply fr_good; eauto.
    + eexists. eexists. eapply fr_end; eauto.
      * intros ds C. rewrite (G1 ds C) in PL. injection PL as E _. now apply NT.
      * now apply in_decimal_one.
  - eexists. eexists. eapply fr_token; eauto. now apply in_decimal_one.
  - eexists. eexists. eapply fr_nul; eauto.
Qed.

(** ** Several files *)

Fixpoint read_all_says (files : str -> file_at) (paths : list str) (x : option config_t * N) : talk (option config_t * N) :=
  match paths with
  | [] => done x
  | p :: rest => tbind (parse_config_file_says files p (snd x) (fst x)) (read_all_says files rest)
  end.

Lemma tbind_id {A} (m : talk A) : tbind m (fun a => done a) = m.
Proof. destruct m as [o [a|w|c]]; cbn; now rewrite ?app_nil_r. Qed.

Lemma tbind_assoc {A B C} (m : talk A) (k : A -> talk B) (j : B -> talk C) : tbind (tbind m k) j = tbind m (fun a => tbind (k a) j).
Proof.
  destruct m as [o [a|w|c]]; cbn; try reflexivity. destruct (k a) as [o' [b|w|c]]; cbn; try reflexivity.
  destruct (j b) as [o'' r]. now rewrite app_assoc.
Qed.

Lemma tbind_ext {A B} (m : talk A) (k k' : A -> talk B) : (forall a, k a = k' a) -> tbind m k = tbind m k'.
Proof. intros H. destruct m as [o [a|w|c]]; cbn; auto. now rewrite H. Qed.

Lemma read_all_says_app files a b : forall x, read_all_says files (a ++ b) x = tbind (read_all_says files a x) (read_all_says files b).
Proof.
  induction a as [|p a IH]; intros x; cbn [app read_all_says].
  - now rewrite tbind_done.
  - rewrite tbind_assoc. now apply tbind_ext.
Qed.

Lemma says_missing files p line c : files p = NoFile -> parse_config_file_says files p line c = done (c, line).
Proof. intros H. unfold parse_config_file_says. now rewrite H. Qed.

Lemma says_some files p line previous x : files p <> NoFile -> snd (parse_config_file_says files p line previous) = Ok x -> fst x <> None.
Proof.
  unfold parse_config_file_says. destruct (files p); [easy|discriminate|]. intros _. rewrite talk_result.
  destruct (snd (yyparse_says _ _ _ _ _ _)) as [[s l]|w|c]; try discriminate. cbn. intros [= <-]. discriminate.
Qed.

Lemma tbind_some {B} files p line (k k' : option config_t * N -> talk B) : files p <> NoFile -> (forall c n, k (Some c, n) = k' (Some c, n)) ->
  tbind (parse_config_file_says files p line None) k = tbind (parse_config_file_says files p line None) k'.
Proof.
  intros N H. pose proof (fun x => says_some files p line None x N) as S.
  destruct (parse_config_file_says files p line None) as [o [[c n]|w|e]]; try reflexivity.
  destruct c as [c|]; [|now destruct (S _ eq_refl)]. cbn. now rewrite H.
Qed.

Definition settle (x : option config_t * N) : talk config_t :=
  match fst x with Some c => done c | None => done spoof_config_file end.

Lemma short_says env p x :
  parse_if_short_says (e_files env) p (snd x) (fst x) = read_all_says (e_files env) (filter (considered env) [p]) x.
Proof.
  unfold parse_if_short_says. cbn [filter]. destruct (considered env p) eqn:E.
  - apply considered_spec in E. destruct E as [A B]. apply N.ltb_lt in A. rewrite A. cbn [read_all_says]. now rewrite tbind_id.
  - cbn [read_all_says]. destruct (N.ltb_spec (strlen p) MAX_PATH_LEN) as [L|L]; [|now destruct x].
    destruct (e_files env p) eqn:F.
    + rewrite says_missing by easy. now destruct x.
    + assert (considered env p = true) by (apply considered_spec; split; [easy|congruence]). congruence.
    + assert (considered env p = true) by (apply considered_spec; split; [easy|congruence]). congruence.
Qed.

Lemma load_says env :
  config_file_load_says env None = tbind (read_all_says (e_files env) (config_paths env) (None, 1%N)) settle.
Proof.
  unfold config_paths. rewrite read_all_says_app, tbind_assoc. unfold config_file_load_says.
  set (files := e_files env).
  set (user := fun x => tbind (read_all_says files (filter (considered env) (user_paths env)) x) settle).
  transitivity (tbind (match e_sysconfdir env with
           | Some d => parse_if_short_says files (d ++ bs "/detoxrc") 1 None
           | None => done (None, 1%N)
           end) (fun x =>
    tbind (or_else_says files (bs "/etc/detoxrc") (snd x) (fst x)) (fun x =>
    tbind (or_else_says files (bs "/usr/local/etc/detoxrc") (snd x) (fst x)) user))).
  { apply tbind_ext. intros [c line]. apply tbind_ext. intros [c1 line1]. apply tbind_ext. intros [c2 line2].
    unfold user, user_paths. rewrite filter_app, read_all_says_app, tbind_assoc.
    assert (X : forall x, tbind (match e_getenv env (bs "XDG_CONFIG_HOME") with
           | Some h => parse_if_short_says files (h ++ bs "/detox/detoxrc") (snd x) (fst x)
           | None => done x
           end) settle =
      tbind (read_all_says (e_files env) (filter (considered env)
         match e_getenv env (bs "XDG_CONFIG_HOME") with Some d => [d ++ bs "/detox/detoxrc"] | None => [] end) x) settle).
    { intros x. destruct (e_getenv env (bs "XDG_CONFIG_HOME")) as [h|]; [|reflexivity]. unfold files. now rewrite short_says. }
    transitivity (tbind (match e_getenv env (bs "HOME") with
           | Some h => parse_if_short_says files (h ++ bs "/.detoxrc") line2 c2
           | None => done (c2, line2)
           end) (fun x => tbind (match e_getenv env (bs "XDG_CONFIG_HOME") with
           | Some h => parse_if_short_says files (h ++ bs "/detox/detoxrc") (snd x) (fst x)
           | None => done x
           end) settle)).
    { apply tbind_ext. intros [c3 line3]. cbn [fst snd]. apply tbind_ext. intros [[c4|] line4]; reflexivity. }
    destruct (e_getenv env (bs "HOME")) as [h|].
    - unfold files at 1. rewrite (short_says env _ (c2, line2)). apply tbind_ext. exact X.
    - cbn [filter read_all_says]. rewrite !tbind_done. apply X. }
  assert (L : forall p, p = bs "/etc/detoxrc" \/ p = bs "/usr/local/etc/detoxrc" ->
              considered env p = match files p with NoFile => false | _ => true end).
  { intros p [->| ->]; reflexivity. }
  assert (SK : forall (c : config_t) n, tbind (or_else_says files (bs "/usr/local/etc/detoxrc") n (Some c)) user = user (Some c, n)).
  { intros c n. cbn [or_else_says]. now rewrite tbind_done. }
  assert (REST : forall n, tbind (or_else_says files (bs "/etc/detoxrc") n None) (fun x =>
                   tbind (or_else_says files (bs "/usr/local/etc/detoxrc") (snd x) (fst x)) user) =
                 tbind (read_all_says files (firstn 1 (filter (considered env) [bs "/etc/detoxrc"; bs "/usr/local/etc/detoxrc"])) (None, n)) user).
  { intros n. cbn [or_else_says filter]. rewrite !L by auto. destruct (files (bs "/etc/detoxrc")) eqn:E.
    - rewrite says_missing by easy. rewrite tbind_done. cbn [or_else_says fst snd].
      destruct (files (bs "/usr/local/etc/detoxrc")) eqn:E'.
      + rewrite says_missing by easy. reflexivity.
      + cbn [firstn read_all_says fst snd]. now rewrite tbind_id.
      + cbn [firstn read_all_says fst snd]. now rewrite tbind_id.
    - cbn [firstn read_all_says fst snd]. rewrite tbind_id. apply tbind_some; [congruence|]. intros c m. apply SK.
    - cbn [firstn read_all_says fst snd]. rewrite tbind_id. apply tbind_some; [congruence|]. intros c m. apply SK. }
  unfold system_paths. destruct (e_sysconfdir env) as [d|].
  - cbn [app filter]. unfold parse_if_short_says. destruct (considered env (d ++ bs "/detoxrc")) eqn:C.
    + apply considered_spec in C. destruct C as [A B]. apply N.ltb_lt in A. rewrite A. cbn [firstn read_all_says fst snd].
      rewrite tbind_id. apply tbind_some; [exact B|]. intros c n. cbn [or_else_says fst snd]. rewrite tbind_done. apply SK.
    + assert (X : (if (strlen (d ++ bs "/detoxrc") <? MAX_PATH_LEN)%N then parse_config_file_says files (d ++ bs "/detoxrc") 1 None
                   else done (None, 1%N)) = done (None, 1%N)).
      { destruct (N.ltb_spec (strlen (d ++ bs "/detoxrc")) MAX_PATH_LEN) as [LT|LT]; [|reflexivity].
        apply says_missing. destruct (files (d ++ bs "/detoxrc")) eqn:F; [easy| |].
        - assert (considered env (d ++ bs "/detoxrc") = true) by (apply considered_spec; split; [easy|unfold files in F; congruence]). congruence.
        - assert (considered env (d ++ bs "/detoxrc") = true) by (apply considered_spec; split; [easy|unfold files in F; congruence]). congruence. }
      rewrite X, tbind_done. apply REST.
  - rewrite tbind_done. apply REST.
Qed.

Lemma files_run files n paths said e : files_read files n paths said e -> forall previous,
  match e with
  | Goes_on m => exists c, read_all_says files paths (previous, n) = (said, Ok (c, m))
  | Gives_up w => exists r, read_all_says files paths (previous, n) = (said, r) /\ final r w
  end.
Proof.
  induction 1 as [n|n p ps said e F _ IH|n p ps F|n p ps bytes said w F R|n p ps bytes said m said' e F R _ IH]; intros previous;
    cbn [read_all_says fst snd].
  - eexists. reflexivity.
  - rewrite says_missing, tbind_done by exact F. apply IH.
  - unfold parse_config_file_says. rewrite F. eexists. split; [reflexivity|exact (fn_exit 2)].
  - unfold parse_config_file_says. rewrite F. set (s0 := mkCf _ _ _ _). destruct (file_runs _ _ _ _ _ R s0 eq_refl) as (r & -> & FN).
    destruct FN; (eexists; split; [reflexivity|constructor]).
  - unfold parse_config_file_says. rewrite F. set (s0 := mkCf _ _ _ _). destruct (file_runs _ _ _ _ _ R s0 eq_refl) as (s' & ->).
    cbn [tbind done quietly]. rewrite app_nil_r.
    specialize (IH (Some (mkConfig (c_sequences s') (Some (c_ignore s'))))).
    destruct e as [k|w].
    + destruct IH as (c & ->). eexists. reflexivity.
    + destruct IH as (r & -> & FN). eexists. split; [reflexivity|exact FN].
Qed.

Lemma every_files files paths : forall n, exists said e, files_read files n paths said e.
Proof.
  induction paths as [|p paths IH]; intros n; [eexists; eexists; constructor|]. destruct (files p) as [| |bytes] eqn:F.
  - destruct (IH n) as (said & e & R). exists said, e. now constructor.
  - eexists. eexists. now apply fs_unreadable.
  - destruct (every_file p n bytes) as (said & [m|w] & R).
    + destruct (IH m) as (said' & e & R'). eexists. eexists. eapply fs_good; eauto.
    + eexists. eexists. eapply fs_bad; eauto.
Qed.

(** What is said about the configuration. *)
Lemma configured_says env file said e : configured env file said e ->
  match e with
  | Goes_on m => exists c, config_file_load_says env file = (said, Ok c)
  | Gives_up w => exists r, config_file_load_says env file = (said, r) /\ final r w
  end.
Proof.
  intros [path F|path said' e' F R|said' e' R].
  - unfold config_file_load_says. rewrite says_missing, tbind_done by exact F. eexists. split; [reflexivity|exact (fn_exit 1)].
  - pose proof (files_run _ _ _ _ _ R None) as H. cbn [read_all_says fst snd] in H. rewrite tbind_id in H.
    unfold config_file_load_says. destruct e' as [m|w].
    + destruct H as ([c|] & E).
      * rewrite E. exists c. cbn. now rewrite app_nil_r.
      * exfalso. apply (says_some _ _ 1%N None (None, m) F); [|reflexivity]. now rewrite E.
    + destruct H as (r & -> & FN). destruct FN; (eexists; split; [reflexivity|constructor]).
  - rewrite load_says. pose proof (files_run _ _ _ _ _ R None) as H. destruct e' as [m|w].
    + destruct H as (c & ->). unfold settle. cbn. destruct c; cbn; rewrite app_nil_r; eauto.
    + destruct H as (r & -> & FN). destruct FN; (eexists; split; [reflexivity|constructor]).
Qed.

Lemma every_configured env file : exists said e, configured env file said e.
Proof.
  destruct file as [path|].
  - destruct (e_files env path) eqn:F.
    + eexists. eexists. now apply cf_missing.
    + destruct (every_files (e_files env) [path] 1%N) as (said & e & R). exists said, e. apply cf_explicit; [congruence|exact R].
    + destruct (every_files (e_files env) [path] 1%N) as (said & e & R). exists said, e. apply cf_explicit; [congruence|exact R].
  - destruct (every_files (e_files env) (config_paths env) 1%N) as (said & e & R). exists said, e. now apply cf_default.
Qed.
