(** * The generated parser says and does what the grammar and the rules say *)

From Verif Require Import Base BaseFacts Stdio Filter Spoof ParseTableSpec ConfigLex ConfigSpec ConfigLexProofs ConfigParse ConfigLoad
  Prog Warnings WarningsProofs Startup ParserTables FlexScanner FlexProofs FlexRules BisonParser BisonProofs StartSpec StartProofs3 StartProofs5 Generated MemFacts.

Local Open Scope nat_scope.

Lemma rule_three act : act_rule act = Some R_newline <-> act = 3%Z.
Proof.
  split; [|now intros ->]. unfold act_rule. intros H. assert (L : (Z.to_nat (act - 1) < 22)) by (change 22 with (length rules); apply nth_error_Some; congruence).
  assert (X : Z.to_nat (act - 1) = 2).
  { remember (Z.to_nat (act - 1)) as n eqn:E. clear E. do 22 (destruct n as [|n]; [first [reflexivity|discriminate]|]). lia. }
  lia.
Qed.

Lemma round_says reads y : reads_ok reads -> sound y -> small y ->
  match input y with
  | [] => exists size, (1 <= size)%Z /\ yy_round reads y = Ok (M_eof, yy_flushed size [])
  | _ :: _ => exists act text y', yy_round reads y = Ok (M_rule act text, y') /\
      sound y' /\ small y' /\ length (input y') < length (input y) /\
      lex_round_says (input y) = do l <- yy_action act text; Ok (l, text, lines_counted act, input y')
  end.
Proof.
  intros R S M. destruct (round_result reads y R S M) as [[E (size & B & ->)]|[NE (st & n & y' & A & B & _ & _ & -> & S' & I')]].
  - rewrite E. exists size. auto.
  - destruct (input y) as [|c r] eqn:I; [easy|]. rewrite <- I in *. exists (accept st), (firstn n (input y)), y'.
    split; [reflexivity|]. split; [exact S'|].
    assert (L : length (input y') < length (input y)) by (rewrite I', skipn_length; lia).
    split; [unfold small in *; lia|]. split; [exact L|]. unfold yy_action, lex_round_says, lines_counted.
    destruct (answer_munch _ _ _ A (proj1 B)) as [(rl & Er & Mu)|(Er & -> & St)]; rewrite Er.
    + rewrite (munch_best _ _ _ _ Mu). rewrite firstn_length, Nat.min_l by lia. rewrite <- I'.
      destruct (Z.eqb_spec (accept st) 3) as [E3|E3].
      * apply rule_three in E3. rewrite E3 in Er. injection Er as <-. reflexivity.
      * assert (rl <> R_newline) by (intros ->; apply rule_three in Er; contradiction). destruct rl; try reflexivity. contradiction.
    + rewrite (stray_best _ St). rewrite I'. cbn [bind]. destruct (Z.eqb_spec (accept st) 3) as [E3|E3].
      * apply rule_three in E3. congruence.
      * now rewrite I.
Qed.

(** The same said, the same result; the scanner is left with an empty buffer. *)
Definition agrees (g : talk (cf_state * N * scanner)) (w : talk (cf_state * N)) : Prop :=
  fst g = fst w /\
  match snd w with
  | Ok (s, line) => exists size, (1 <= size)%Z /\ snd g = Ok (s, line, yy_flushed size [])
  | UB u => snd g = UB u
  | Exit c => snd g = Exit c
  end.

Lemma agrees_after {C} (m : talk C) g w : (forall c, snd m = Ok c -> agrees (g c) (w c)) -> agrees (let% c := m in g c) (let% c := m in w c).
Proof.
  intros H. unfold tbind. destruct m as [said [c|u|n]]; cbn [fst snd] in *; [|split; reflexivity|split; reflexivity].
  destruct (H c eq_refl) as [A B]. destruct (g c) as [g1 g2], (w c) as [w1 w2]. cbn [fst snd] in *. split; cbn [fst snd]; [now rewrite A|exact B].
Qed.

(** yyparse_from_says after the call of yylex *)
Definition after_lex_says (fuel : nat) (reads : reader) (filename : str) (st : stacks) (lval : value) (s : cf_state)
  (r : option token * str * N * scanner) : talk (cf_state * N * scanner) :=
  let '(t, text, line, y) := r in
  match t with
  | None => yyparse_from_says fuel reads filename st (Some YYEOF) lval s text line y
  | Some t => yyparse_from_says fuel reads filename st (Some (token_code t)) (set_lval t lval) s text line y
  end.

Lemma from_says_eq fuel reads filename st look lval s text line y :
  yyparse_from_says (S fuel) reads filename st look lval s text line y =
  match yyrun yy_rounds filename st look lval s with
  | Ok (Accepted s') => done (s', line, y)
  | Ok (Wants st' s') => tbind (yylex_says (lex_fuel y) reads line y) (after_lex_says fuel reads filename st' lval s')
  | UB w => quietly (UB w)
  | Exit _ => yyerror_says filename line text
  end.
Proof. reflexivity. Qed.

Lemma tbind_value {A B} (a : A) (k : A -> talk B) : tbind (quietly (Ok a)) k = k a.
Proof. unfold tbind, quietly. now destruct (k a). Qed.

Lemma yylex_says_eq fuel reads line y : yylex_says (S fuel) reads line y =
  tbind (quietly (yy_round reads y)) (fun r => let (m, y) := r in
    match m with
    | M_eof => done (None, skipn (y_text y) (y_chars y ++ EOBs), line, y)
    | M_rule act text =>
      let% Lexed printed t := quietly (yy_action act text) in
      let% _ := print_out printed in
      match t with
      | None => yylex_says fuel reads (line + lines_counted act) y
      | Some t => done (Some t, text, (line + lines_counted act)%N, y)
      end
    end).
Proof. reflexivity. Qed.

Lemma after_lex_says_agrees reads filename : reads_ok reads -> forall n y st p s lval line fuel fuelL f,
  length (input y) <= n -> sound y -> small y -> stands p st ->
  length (input y) < fuelL -> length (input y) < fuel -> length (input y) <= f ->
  agrees (tbind (yylex_says fuelL reads line y) (after_lex_says fuel reads filename st lval s)) (yyparse_says f filename p s line (input y)).
Proof.
  intros R. induction n as [|n IH]; intros y st p s lval line fuel fuelL f N Sy My St FL F Ff;
    (destruct fuelL as [|fuelL]; [lia|]); (destruct fuel as [|fuel]; [lia|]);
    pose proof (round_says reads y R Sy My) as X; destruct (stands_follows filename p s st St) as (W & T & E);
    rewrite yylex_says_eq.
  1: assert (I : input y = []) by (destruct (input y); [easy|simpl in N; lia]).
  2: destruct (input y) as [|c r] eqn:I.
  1,2: try rewrite I in *; destruct X as (size & Z & X); rewrite X, tbind_value; unfold done at 1; rewrite tbind_value; unfold after_lex_says;
    rewrite from_says_eq, E; destruct f; cbn [yyparse_says];
    (destruct p; (split; [reflexivity|]); cbn [snd done]; try reflexivity; exists size; auto).
  destruct X as (act & text & y' & X & Sy' & My' & L & RL).
  rewrite X, tbind_value. destruct f as [|f]; [simpl in Ff; lia|]. cbn [yyparse_says]. rewrite RL.
  destruct (yy_action act text) as [[pr [t|]]|w|k]; [| |split; reflexivity|split; reflexivity].
  - cbn [bind]. rewrite !tbind_value. rewrite tbind_assoc. apply agrees_after. intros u _. unfold done at 1. rewrite tbind_value.
    unfold after_lex_says. rewrite from_says_eq. specialize (T t lval).
    destruct (parse_step filename p s t) as [[p' s']|].
    + destruct T as (st' & -> & St'). apply (IH y' st' p' s'); auto; try lia. apply lex_fuel_enough.
    + rewrite T. split; reflexivity.
  - cbn [bind]. rewrite !tbind_value. rewrite tbind_assoc. apply agrees_after. intros u _.
    apply (IH y' st p s lval (line + lines_counted act)%N (S fuel) fuelL f); auto; lia.
Qed.

Theorem yyparse_says_agrees reads filename lval s text line y : reads_ok reads -> sound y -> small y ->
  agrees (yyparse_from_says (parse_fuel y) reads filename [(0%Z, V_unset)] None lval s text line y)
         (yyparse_says (length (input y)) filename P_top s line (input y)).
Proof.
  intros R Sy My. change (parse_fuel y) with (S (S (lex_fuel y))). rewrite from_says_eq.
  replace (yyrun yy_rounds filename [(0%Z, V_unset)] None lval s) with (@Ok pause (Wants [(1%Z, V_unset); (0%Z, V_unset)] s)) by run_by.
  apply (after_lex_says_agrees reads filename R (length (input y))); auto; [constructor|apply lex_fuel_enough|].
  pose proof (lex_fuel_enough y). lia.
Qed.

(** ** Files *)

(** The same said and the same result, and an idle scanner. *)
Definition read_alike (g : talk (option config_t * N * scanner)) (w : talk (option config_t * N)) : Prop :=
  fst g = fst w /\
  match snd w with
  | Ok (c, line) => exists y, snd g = Ok (c, line, y) /\ idle y
  | UB u => snd g = UB u
  | Exit c => snd g = Exit c
  end.

Lemma alike_done c line y : idle y -> read_alike (done (c, line, y)) (done (c, line)).
Proof. intros I. split; [reflexivity|]. exists y. auto. Qed.

Lemma parse_generated reads files filename lval line previous y : reads_ok reads -> idle y -> small_file files filename ->
  read_alike (parse_config_file_generated reads files filename lval line previous y) (parse_config_file_says files filename line previous).
Proof.
  intros R I B. unfold parse_config_file_generated, parse_config_file_says. destruct (files filename) as [| |bytes] eqn:F.
  - now apply alike_done.
  - split; reflexivity.
  - destruct (sound_open bytes y I) as [Sy Ey]. assert (My : small (open_on bytes y)) by (unfold small; rewrite Ey; now apply B).
    cbv zeta.
    match goal with |- context [yyparse_says _ _ _ ?s _ _] => pose proof (yyparse_says_agrees reads filename lval s [] line _ R Sy My) as [A C] end.
    rewrite Ey in A, C. unfold tbind.
    destruct (yyparse_says _ _ _ _ _ _) as [said [[s l]|u|k]]; destruct (yyparse_from_says _ _ _ _ _ _ _ _ _ _) as [said' r];
      cbn [fst snd] in A, C; subst said'.
    + destruct C as (size & Z & ->). split; [reflexivity|]. eexists. split; [reflexivity|]. exists size. auto.
    + subst r. split; reflexivity.
    + subst r. split; reflexivity.
Qed.

Lemma short_generated reads files filename lval line previous y : reads_ok reads -> idle y -> small_file files filename ->
  read_alike (parse_if_short_generated reads files filename lval line previous y) (parse_if_short_says files filename line previous).
Proof.
  intros R I B. unfold parse_if_short_generated, parse_if_short_says.
  destruct (_ <? _)%N; [now apply parse_generated|now apply alike_done].
Qed.

Lemma else_generated reads files filename lval line previous y : reads_ok reads -> idle y -> small_file files filename ->
  read_alike (or_else_generated reads files filename lval line previous y) (or_else_says files filename line previous).
Proof.
  intros R I B. unfold or_else_generated, or_else_says. destruct previous; [now apply alike_done|now apply parse_generated].
Qed.

Lemma alike_bind {A} g w (k : option config_t * N * scanner -> talk A) (j : option config_t * N -> talk A) : read_alike g w ->
  (forall c line y, idle y -> k (c, line, y) = j (c, line)) -> tbind g k = tbind w j.
Proof.
  intros [E H] K. destruct g as [said r], w as [said' r']. cbn [fst snd] in E, H. subst said'. unfold tbind.
  destruct r' as [[c line]|u|n]; [|now rewrite H|now rewrite H]. destruct H as (y & -> & I). now rewrite (K c line y I).
Qed.

(** What read returns is possible, and no file is longer than 1 GB. *)
Definition arrives (arr : arrival) (env : environment) : Prop :=
  (forall k, reads_ok (ar_reads arr k)) /\ (forall path, small_file (e_files env) path).

Theorem load_generated arr env chk : arrives arr env ->
  config_file_load_generated arr env chk = config_file_load_says env chk.
Proof.
  intros [R B]. unfold config_file_load_generated, config_file_load_says. cbv zeta. destruct chk as [path|].
  - apply alike_bind; [apply parse_generated; auto; apply idle_created|]. intros c line y I. reflexivity.
  - apply alike_bind.
    { destruct (e_sysconfdir env); [apply short_generated; auto; apply idle_created|apply alike_done, idle_created]. }
    intros c1 l1 y1 I1. apply alike_bind; [now apply else_generated|].
    intros c2 l2 y2 I2. apply alike_bind; [now apply else_generated|].
    intros c3 l3 y3 I3. apply alike_bind; [destruct (e_getenv env _); [now apply short_generated|now apply alike_done]|].
    intros c4 l4 y4 I4. apply alike_bind; [destruct (e_getenv env _); [now apply short_generated|now apply alike_done]|].
    intros c5 l5 y5 I5. reflexivity.
Qed.

Theorem configured_generated arr env file said e : arrives arr env -> configured env file said e ->
  match e with
  | Goes_on _ => exists c, config_file_load_generated arr env file = (said, Ok c) /\ snd (config_file_load env file) = Ok c
  | Gives_up (StopExit n) => config_file_load_generated arr env file = (said, Exit n)
  | Gives_up (StopUB u) => config_file_load_generated arr env file = (said, UB u)
  | Gives_up StopFuel => False
  end.
Proof.
  intros A C. rewrite (load_generated arr env file A). pose proof (configured_says _ _ _ _ C) as H.
  destruct e as [n|w]; [|destruct H as (r & -> & F); destruct F; reflexivity].
  destruct (load_both _ _ _ _ C) as (c & printed & -> & ->). eauto.
Qed.

Theorem generated_line arr env path bytes said r : arrives arr env -> e_files env path = Contents bytes ->
  config_file_load_generated arr env (Some path) = (said, Exit r) -> Forall (fun x => fst x = Stderr) said ->
  r = 1%N /\ exists before after text line, bytes = before ++ text ++ after /\ in_decimal (1 + newlines before) line /\
    said = syntax_error path line text.
Proof.
  intros A B E F. destruct (every_configured env (Some path)) as (said' & e & C). pose proof (configured_generated arr _ _ _ _ A C) as G.
  destruct e as [n|[u|n|]]; [destruct G as (c & G & _); congruence|congruence| |contradiction]. rewrite E in G. injection G as <- <-. split.
  - inversion C as [p N|p said0 e N R|]; subst; [congruence|].
    inversion R as [|n p ps said1 e M R'|n p ps U|n p ps bytes' said1 w' B' R'|n p ps bytes' said1 m said' e B' R' R'']; subst; try congruence.
    + inversion R'; subst; reflexivity.
    + inversion R''.
  - destruct (named_line _ _ _ _ _ B C F) as [H|H]; [discriminate|exact H].
Qed.
