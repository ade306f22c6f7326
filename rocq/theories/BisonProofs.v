(** * The generated parser follows the grammar of src/config_file_yacc.y *)

From Verif Require Import Base BaseFacts Stdio StdioFacts Filter Spoof ParseTableSpec ConfigLex ConfigSpec ConfigLexProofs
  ConfigParse ConfigProofs ConfigLayoutProofs ConfigLoadSpec ConfigLoadProofs ParserTables FlexScanner FlexProofs FlexRules BisonParser.

Local Open Scope nat_scope.

(** ** The stacks that stand for the states of the parser in ConfigParse.v *)

(** Before the first method of a sequence, or after some. *)
Inductive in_methods : stacks -> Prop :=
| im_first a b c : in_methods [(7%Z, a); (1%Z, b); (0%Z, c)]
| im_more a b c d : in_methods [(21%Z, a); (7%Z, b); (1%Z, c); (0%Z, d)].

Inductive in_ignores : stacks -> Prop :=
| ii_first a b c : in_ignores [(9%Z, a); (1%Z, b); (0%Z, c)]
| ii_more a b c d : in_ignores [(29%Z, a); (9%Z, b); (1%Z, c); (0%Z, d)].

(** The states after the key word of a method, its brace, its key word of an option (file
    and built-in), the option and the semicolon after it, and the method. *)
Definition method_states (c : cleaner) : Z * Z * (Z * Z * Z) * (Z * Z * Z) * Z :=
  match c with
  | F_iso8859_1 => (14, 32, (53, 68, 76), (51, 67, 75), 23)
  | F_utf_8 => (19, 37, (61, 73, 81), (59, 72, 80), 24)
  | F_safe => (17, 35, (58, 71, 79), (56, 70, 78), 25)
  | F_wipeup => (20, 38, (63, 74, 0), (0, 0, 0), 26)
  | F_max_length => (16, 34, (55, 69, 77), (0, 0, 0), 27)
  | F_uncgi => (18, 0, (0, 0, 0), (0, 0, 0), 0)
  | F_lower => (15, 0, (0, 0, 0), (0, 0, 0), 0)
  | F_unknown _ => (0, 0, (0, 0, 0), (0, 0, 0), 0)
  end%Z.

Definition s_word c := let '(a, _, _, _, _) := method_states c in a.
Definition s_open c := let '(_, b, _, _, _) := method_states c in b.
Definition s_opt c (b : bool) := let '(_, _, f, g, _) := method_states c in let '(x, _, _) := if b then g else f in x.
Definition s_arg c (b : bool) := let '(_, _, f, g, _) := method_states c in let '(_, x, _) := if b then g else f in x.
Definition s_end c (b : bool) := let '(_, _, f, g, _) := method_states c in let '(_, _, x) := if b then g else f in x.
Definition s_done c := let '(_, _, _, _, d) := method_states c in d.

Definition table_filter (c : cleaner) (b : bool) (n : str) : filter_t :=
  if b then make_filter c (Some n) None 0 false else make_filter c None (Some n) 0 false.

Definition with_options (c : cleaner) : bool :=
  match c with F_iso8859_1 | F_utf_8 | F_safe | F_wipeup | F_max_length => true | _ => false end.
Definition without_options (c : cleaner) : bool :=
  match c with F_uncgi | F_lower => true | _ => false end.

Inductive stands : pstate -> stacks -> Prop :=
| st_top a b : stands P_top [(1%Z, a); (0%Z, b)]
| st_sequence a b c : stands P_sequence [(4%Z, a); (1%Z, b); (0%Z, c)]
| st_named n a b c : stands (P_named n) [(13%Z, V_string n); (4%Z, a); (1%Z, b); (0%Z, c)]
| st_methods0 a b c : stands (P_methods false) [(7%Z, a); (1%Z, b); (0%Z, c)]
| st_methods1 a b c d : stands (P_methods true) [(21%Z, a); (7%Z, b); (1%Z, c); (0%Z, d)]
| st_simple c st a : in_methods st -> without_options c = true -> stands (P_simple c) ((s_word c, a) :: st)
| st_method c st a : in_methods st -> with_options c = true -> stands (P_method c) ((s_word c, a) :: st)
| st_options c st a b : in_methods st -> with_options c = true -> stands (P_options c) ((s_open c, a) :: (s_word c, b) :: st)
| st_table c bi st a b d : in_methods st -> takes_table c = true ->
    stands (P_table c bi) ((s_opt c bi, a) :: (s_open c, b) :: (s_word c, d) :: st)
| st_length st a b d : in_methods st ->
    stands P_length ((55%Z, a) :: (34%Z, b) :: (16%Z, d) :: st)
| st_option_table c bi n st a b d : in_methods st -> takes_table c = true ->
    stands (P_option (table_filter c bi n)) ((s_arg c bi, V_string n) :: (s_opt c bi, a) :: (s_open c, b) :: (s_word c, d) :: st)
| st_option_length n st a b d : in_methods st ->
    stands (P_option (make_filter F_max_length None None n false)) ((69%Z, V_number n) :: (55%Z, a) :: (34%Z, b) :: (16%Z, d) :: st)
| st_option_wipeup st a b d : in_methods st ->
    stands (P_option (make_filter F_wipeup None None 0 true)) ((63%Z, a) :: (38%Z, b) :: (20%Z, d) :: st)
| st_eol_table c bi n st a b d e : in_methods st -> takes_table c = true ->
    stands (P_option_eol (table_filter c bi n))
      ((s_end c bi, e) :: (s_arg c bi, V_string n) :: (s_opt c bi, a) :: (s_open c, b) :: (s_word c, d) :: st)
| st_eol_length n st a b d e : in_methods st ->
    stands (P_option_eol (make_filter F_max_length None None n false))
      ((77%Z, e) :: (69%Z, V_number n) :: (55%Z, a) :: (34%Z, b) :: (16%Z, d) :: st)
| st_eol_wipeup st a b d e : in_methods st ->
    stands (P_option_eol (make_filter F_wipeup None None 0 true))
      ((74%Z, e) :: (63%Z, a) :: (38%Z, b) :: (20%Z, d) :: st)
| st_method_end c st a : in_methods st -> with_options c = true -> stands P_method_end ((s_done c, a) :: st)
| st_sequence_end a b c d e : stands P_sequence_end [(39%Z, a); (21%Z, b); (7%Z, c); (1%Z, d); (0%Z, e)]
| st_ignore a b c : stands P_ignore [(3%Z, a); (1%Z, b); (0%Z, c)]
| st_ignores0 a b c : stands (P_ignores false) [(9%Z, a); (1%Z, b); (0%Z, c)]
| st_ignores1 a b c d : stands (P_ignores true) [(29%Z, a); (9%Z, b); (1%Z, c); (0%Z, d)]
| st_ignore_file st a : in_ignores st -> stands P_ignore_file ((28%Z, a) :: st)
| st_ignored s st a : in_ignores st -> stands (P_ignored s) ((47%Z, V_string s) :: (28%Z, a) :: st)
| st_ignore_end a b c d e : stands P_ignore_end [(48%Z, a); (29%Z, b); (9%Z, c); (1%Z, d); (0%Z, e)].

(** The parser between two tokens: it wants one, and what it does with it. *)
Definition follows (filename : str) (p : pstate) (s : cf_state) (st : stacks) : Prop :=
  (forall lval, yyrun yy_rounds filename st None lval s = Ok (Wants st s)) /\
  (forall t lval, match parse_step filename p s t with
   | Some (p', s') => exists st', 
       yyrun yy_rounds filename st (Some (token_code t)) (set_lval t lval) s = Ok (Wants st' s') /\ stands p' st'
   | None => yyrun yy_rounds filename st (Some (token_code t)) (set_lval t lval) s = Exit EXIT_FAILURE
   end) /\
  (forall lval, yyrun yy_rounds filename st (Some YYEOF) lval s =
     match p with P_top => Ok (Accepted s) | _ => Exit EXIT_FAILURE end).

(* Everything but what the actions do. *)
Ltac run_by := cbv -[cf_append_sequence_list cf_append_filter cf_append_ignore_entry make_filter table_filter]; reflexivity.

Ltac stand_by := solve [
  constructor; (constructor || reflexivity) |
  eapply st_option_length; constructor | eapply st_eol_length; constructor |
  eapply st_option_wipeup; constructor | eapply st_eol_wipeup; constructor |
  match goal with
  | |- stands (P_option (make_filter ?c (Some _) None _ _)) _ => apply (st_option_table c true)
  | |- stands (P_option (make_filter ?c None (Some _) _ _)) _ => apply (st_option_table c false)
  | |- stands (P_option_eol (table_filter ?c ?b _)) _ => apply (st_eol_table c b)
  | |- stands P_method_end _ =>
    first [apply (st_method_end F_iso8859_1) | apply (st_method_end F_utf_8) | apply (st_method_end F_safe)
          |apply (st_method_end F_wipeup) | apply (st_method_end F_max_length)]
  end; (constructor || reflexivity) ].

Ltac step_by := first
  [ run_by
  | eexists; split; [run_by|stand_by] ].

Ltac follow_by :=
  split; [intros; run_by|split; [|intros; run_by]];
  intros [[]| | | | | |] lval; cbn [parse_step string_token method_state takes_table]; step_by.

Lemma stands_follows filename p s st : stands p st -> follows filename p s st.
Proof.
  intros H. destruct H;
    repeat match goal with
    | H : in_methods _ |- _ => destruct H
    | H : in_ignores _ |- _ => destruct H
    | H : with_options ?c = true |- _ => destruct c; try discriminate; clear H
    | H : without_options ?c = true |- _ => destruct c; try discriminate; clear H
    | H : takes_table ?c = true |- _ => destruct c; try discriminate; clear H
    | b : bool |- _ => destruct b
    end.
  all: follow_by.
Qed.

(** ** The whole parse *)

(** The same output and the same result; the scanner is left with an empty buffer. *)
Definition agrees_with (g : wres (cf_state * scanner)) (w : wres cf_state) : Prop :=
  fst g = fst w /\
  match snd w with
  | Ok s => exists size, (1 <= size)%Z /\ snd g = Ok (s, yy_flushed size [])
  | UB u => snd g = UB u
  | Exit c => snd g = Exit c
  end.

(** yyparse_from after the call of yylex *)
Definition after_lex (fuel : nat) (reads : reader) (filename : str) (st : stacks) (lval : value) (s : cf_state)
  (r : str * res (option token * scanner)) : wres (cf_state * scanner) :=
  match snd r with
  | Ok (None, y') =>
    let q := yyparse_from fuel reads filename st (Some YYEOF) lval s y' in (fst r ++ fst q, snd q)
  | Ok (Some t, y') =>
    let q := yyparse_from fuel reads filename st (Some (token_code t)) (set_lval t lval) s y' in
    (fst r ++ fst q, snd q)
  | UB w => (fst r, UB w)
  | Exit c => (fst r, Exit c)
  end.

Lemma yyparse_from_eq fuel reads filename st look lval s y :
  yyparse_from (S fuel) reads filename st look lval s y =
  match yyrun yy_rounds filename st look lval s with
  | Ok (Accepted s') => ([], Ok (s', y))
  | Ok (Wants st' s') => after_lex fuel reads filename st' lval s' (yylex (lex_fuel y) reads y)
  | UB w => ([], UB w)
  | Exit c => ([], Exit c)
  end.
Proof. reflexivity. Qed.

Lemma yylex_eq fuel reads y : yylex (S fuel) reads y =
  match yy_round reads y with
  | Ok (M_eof, y') => ([], Ok (None, y'))
  | Ok (M_rule act text, y') =>
    match yy_action act text with
    | Ok (Lexed printed None) => let r := yylex fuel reads y' in (printed ++ fst r, snd r)
    | Ok (Lexed printed (Some t)) => (printed, Ok (Some t, y'))
    | UB w => ([], UB w)
    | Exit c => ([], Exit c)
    end
  | UB w => ([], UB w)
  | Exit c => ([], Exit c)
  end.
Proof. reflexivity. Qed.

Lemma yyparse_end f filename p s : yyparse f filename p s [] = match p with P_top => ([], Ok s) | _ => ([], Exit EXIT_FAILURE) end.
Proof. destruct f; reflexivity. Qed.

Lemma yyparse_more f filename p s c r : yyparse (S f) filename p s (c :: r) =
  match lex_round (c :: r) with
  | Ok (Lexed printed None, rest) => let r := yyparse f filename p s rest in (printed ++ fst r, snd r)
  | Ok (Lexed printed (Some t), rest) =>
    match parse_step filename p s t with
    | Some (p', s') => let r := yyparse f filename p' s' rest in (printed ++ fst r, snd r)
    | None => (printed, Exit EXIT_FAILURE)
    end
  | UB w => ([], UB w)
  | Exit c => ([], Exit c)
  end.
Proof. reflexivity. Qed.

Lemma agrees_prefix pr g w : agrees_with g w -> agrees_with (pr ++ fst g, snd g) (pr ++ fst w, snd w).
Proof. intros [A B]. split; simpl; [now rewrite A|exact B]. Qed.

Lemma after_lex_prefix fuel reads filename st lval s pr r :
  after_lex fuel reads filename st lval s (pr ++ fst r, snd r) =
  (pr ++ fst (after_lex fuel reads filename st lval s r), snd (after_lex fuel reads filename st lval s r)).
Proof. destruct r as [out [[[t|] y]|w|k]]; unfold after_lex; cbn [fst snd]; rewrite ?app_assoc; reflexivity. Qed.

Lemma lex_fuel_enough y : length (input y) < lex_fuel y.
Proof. unfold lex_fuel, input, data. rewrite app_length, skipn_length. lia. Qed.

Lemma after_lex_agrees reads filename : reads_ok reads -> forall n y st p s lval fuel fuelL f,
  length (input y) <= n -> sound y -> small y -> stands p st ->
  length (input y) < fuelL -> length (input y) < fuel -> length (input y) <= f ->
  agrees_with (after_lex fuel reads filename st lval s (yylex fuelL reads y)) (yyparse f filename p s (input y)).
Proof.
  intros R. induction n as [|n IH]; intros y st p s lval fuel fuelL f N Sy My St FL F Ff;
    (destruct fuelL as [|fuelL]; [lia|]); (destruct fuel as [|fuel]; [lia|]);
    pose proof (round_lex reads y R Sy My) as X; destruct (stands_follows filename p s st St) as (W & T & E);
    rewrite yylex_eq.
  1: assert (I : input y = []) by (destruct (input y); [easy|simpl in N; lia]).
  2: destruct (input y) as [|c r] eqn:I.
  1,2: try rewrite I in *; destruct X as (size & Z & X); rewrite X, yyparse_end; unfold after_lex; cbn [fst snd app];
    rewrite yyparse_from_eq, E; destruct p; (split; [reflexivity|]); cbn [snd]; eauto.
  destruct X as (act & text & y' & X & Sy' & My' & L & RL).
  rewrite X. destruct f as [|f]; [simpl in Ff; lia|]. rewrite yyparse_more, RL.
  destruct (yy_action act text) as [[pr [t|]]|w|k]; cbn [bind].
  - unfold after_lex. cbn [snd fst]. rewrite yyparse_from_eq. specialize (T t lval).
    destruct (parse_step filename p s t) as [[p' s']|].
    + destruct T as (st' & -> & St'). apply agrees_prefix. apply (IH y' st' p' s'); auto; try lia. apply lex_fuel_enough.
    + rewrite T. cbn [fst snd]. rewrite app_nil_r. split; reflexivity.
  - assert (A := IH y' st p s lval (S fuel) fuelL f ltac:(lia) Sy' My' St ltac:(lia) ltac:(lia) ltac:(lia)).
    apply (agrees_prefix pr) in A. cbv zeta. rewrite after_lex_prefix. exact A.
  - split; reflexivity.
  - split; reflexivity.
Qed.

Theorem yyparse_c_agrees reads filename lval s y : reads_ok reads -> sound y -> small y ->
  agrees_with (yyparse_c reads filename lval s y) (yyparse (length (input y)) filename P_top s (input y)).
Proof.
  intros R Sy My. unfold yyparse_c. change (parse_fuel y) with (S (S (lex_fuel y))). rewrite yyparse_from_eq.
  replace (yyrun yy_rounds filename [(0%Z, V_unset)] None lval s) with (@Ok pause (Wants [(1%Z, V_unset); (0%Z, V_unset)] s)) by run_by.
  apply (after_lex_agrees reads filename R (length (input y))); auto; [constructor|apply lex_fuel_enough|].
  pose proof (lex_fuel_enough y). lia.
Qed.

(** ** parse_config_file *)

(** The scanner before a file is read: it has just been set up, or the previous file has
    been read to its end. *)
Definition idle (y : scanner) : Prop := exists size, (1 <= size)%Z /\ y = yy_flushed size [].

Lemma idle_created : idle yy_created.
Proof. exists YY_BUF_SIZE. split; [unfold YY_BUF_SIZE; lia|reflexivity]. Qed.

Theorem parse_config_file_agrees reads files filename lval previous y : reads_ok reads -> idle y ->
  (forall bytes, files filename = Contents bytes -> (Z.of_nat (length bytes) <= 2 ^ 30 - 2)%Z) ->
  fst (parse_config_file_c reads files filename lval previous y) = fst (parse_config_file files filename previous) /\
  match snd (parse_config_file files filename previous) with
  | Ok c => exists y', snd (parse_config_file_c reads files filename lval previous y) = Ok (c, y') /\ idle y'
  | UB u => snd (parse_config_file_c reads files filename lval previous y) = UB u
  | Exit c => snd (parse_config_file_c reads files filename lval previous y) = Exit c
  end.
Proof.
  intros R I B. unfold parse_config_file, parse_config_file_c. destruct (files filename) as [| |bytes]; cbn [fst snd].
  - split; [reflexivity|]. eauto.
  - split; reflexivity.
  - destruct I as (size & Z & ->).
    set (s0 := mkCf _ _ _ _). set (y := open_on bytes (yy_flushed size [])).
    assert (Ey : input y = bytes) by reflexivity.
    assert (Sy : sound y).
    { unfold sound, y, open_on, yy_flushed. simpl. splits; try lia; try discriminate. }
    assert (My : small y) by (unfold small; rewrite Ey; apply B; reflexivity).
    pose proof (yyparse_c_agrees reads filename lval s0 y R Sy My) as [A C]. rewrite Ey in A, C.
    unfold wbind. destruct (snd (yyparse (length bytes) filename P_top s0 bytes)) as [s|u|k].
    + destruct C as (size' & Z' & ->). cbn [fst snd]. rewrite A. split; [reflexivity|].
      eexists. split; [reflexivity|]. exists size'. auto.
    + rewrite C. cbn [fst snd]. rewrite A. split; reflexivity.
    + rewrite C. cbn [fst snd]. rewrite A. split; reflexivity.
Qed.

(** ** The scanner alone *)

(** The next action is the one of the rule that flex's rules choose. *)
Theorem round_rule reads y : reads_ok reads -> sound y -> small y -> input y <> [] ->
  exists act text y', yy_round reads y = Ok (M_rule act text, y') /\ sound y' /\ small y' /\
    input y = text ++ input y' /\
    ((exists r, act_rule act = Some r /\ munch (input y) text (input y') r) \/
     (act_rule act = None /\ length text = 1 /\ stray (input y))).
Proof.
  intros R Sy My NE. destruct (round_result reads y R Sy My) as [[E _]|[_ D]]; [contradiction|].
  destruct D as (st & n & y' & A & L & G & NZ & E & Sy' & I).
  exists (accept st), (firstn n (input y)), y'. rewrite I. splits; auto.
  - unfold small in *. rewrite I, skipn_length. lia.
  - symmetry. apply firstn_skipn.
  - destruct (answer_munch _ _ _ A (proj1 L)) as [H|(H & -> & S')]; [left; exact H|right].
    splits; auto. rewrite firstn_length. lia.
Qed.

Lemma yylex_scans reads : reads_ok reads -> forall bytes ts printed, scans bytes ts printed ->
  forall y fuel, input y = bytes -> sound y -> small y -> length bytes < fuel ->
  match ts with
  | [] => exists y', yylex fuel reads y = (printed, Ok (None, y')) /\ idle y'
  | t :: ts' => exists p1 p2 y', yylex fuel reads y = (p1, Ok (Some t, y')) /\ printed = p1 ++ p2 /\
                  sound y' /\ small y' /\ scans (input y') ts' p2 /\ length (input y') < length bytes
  end.
Proof.
  intros R bytes ts printed H.
  induction H as [|bytes s rest r pr ts more M E Sc IH|bytes s rest r pr t ts more M E Sc IH|c rest ts more X Sc IH];
    intros y fuel I Sy My F; (destruct fuel as [|fuel]; [lia|]);
    pose proof (round_lex reads y R Sy My) as Q; rewrite yylex_eq.
  - rewrite I in Q. destruct Q as (size & Z & ->). eexists. split; [reflexivity|]. exists size. auto.
  - assert (NE : input y <> []) by (rewrite I; destruct M as (-> & N & _); destruct s; [contradiction|discriminate]).
    destruct (input y) as [|c0 r0] eqn:Iy; [contradiction|]. destruct Q as (act & text & y' & Q & Sy' & My' & L & RL).
    rewrite Q. rewrite I in RL. rewrite (lex_round_munch _ _ _ _ _ _ M E) in RL.
    destruct (yy_action act text) as [l| |]; try discriminate. cbn [bind] in RL. injection RL as <- RL. rewrite I in L.
    specialize (IH y' fuel (eq_sym RL) Sy' My' ltac:(rewrite RL; lia)). cbv zeta. destruct ts as [|t ts].
    + destruct IH as (y2 & -> & J). cbn [fst snd]. eauto.
    + destruct IH as (p1 & p2 & y2 & -> & -> & A & B & C & D). cbn [fst snd].
      exists (pr ++ p1), p2, y2. splits; auto. { apply app_assoc. } rewrite RL in D. lia.
  - assert (NE : input y <> []) by (rewrite I; destruct M as (-> & N & _); destruct s; [contradiction|discriminate]).
    destruct (input y) as [|c0 r0] eqn:Iy; [contradiction|]. destruct Q as (act & text & y' & Q & Sy' & My' & L & RL).
    rewrite Q. rewrite I in RL. rewrite (lex_round_munch _ _ _ _ _ _ M E) in RL.
    destruct (yy_action act text) as [l| |]; try discriminate. cbn [bind] in RL. injection RL as <- RL. rewrite I in L.
    exists pr, more, y'. splits; auto. now rewrite <- RL.
  - destruct (input y) as [|c0 r0] eqn:Iy; [discriminate|]. destruct Q as (act & text & y' & Q & Sy' & My' & L & RL).
    rewrite Q. rewrite I in RL. rewrite (lex_round_stray _ _ X) in RL.
    destruct (yy_action act text) as [l| |]; try discriminate. cbn [bind] in RL. injection RL as <- RL. rewrite I in L.
    specialize (IH y' fuel (eq_sym RL) Sy' My' ltac:(rewrite RL; simpl in L, F; lia)). cbv zeta. destruct ts as [|t ts].
    + destruct IH as (y2 & -> & J). cbn [app fst snd]. eauto.
    + destruct IH as (p1 & p2 & y2 & -> & -> & A & B & C & D). cbn [app fst snd].
      exists p1, p2, y2. splits; auto. simpl. lia.
Qed.

(** [delivered reads y ts printed]: what repeated calls of yylex give. *)
Inductive delivered (reads : reader) : scanner -> list token -> str -> Prop :=
| delivered_end y printed y' :
    yylex (lex_fuel y) reads y = (printed, Ok (None, y')) -> idle y' -> delivered reads y [] printed
| delivered_token y printed t y' ts more :
    yylex (lex_fuel y) reads y = (printed, Ok (Some t, y')) -> delivered reads y' ts more ->
    delivered reads y (t :: ts) (printed ++ more).

Theorem scans_delivered reads : reads_ok reads -> forall ts bytes printed, scans bytes ts printed ->
  forall y, input y = bytes -> sound y -> small y -> delivered reads y ts printed.
Proof.
  intros R. induction ts as [|t ts IH]; intros bytes printed H y I Sy My;
    pose proof (yylex_scans reads R _ _ _ H y (lex_fuel y) I Sy My) as Q; rewrite <- I in Q;
    specialize (Q (lex_fuel_enough y)); cbv beta iota in Q.
  - destruct Q as (y' & Q & J). econstructor; eauto.
  - destruct Q as (p1 & p2 & y' & Q & -> & A & B & C & D). econstructor; eauto.
Qed.

Lemma delivered_unique reads y ts printed : delivered reads y ts printed ->
  forall ts' printed', delivered reads y ts' printed' -> ts' = ts /\ printed' = printed.
Proof.
  induction 1 as [y pr y' E J|y pr t y' ts more E D IH]; intros ts' printed' H'; inversion H'; subst; rewrite E in *;
    try discriminate.
  - split; congruence.
  - match goal with X : (_, Ok (Some _, _)) = _ |- _ => injection X as <- <- <- end.
    match goal with X : delivered reads y' _ _ |- _ => destruct (IH _ _ X) as (-> & ->) end. auto.
Qed.

Lemma sound_open bytes y : idle y -> sound (open_on bytes y) /\ input (open_on bytes y) = bytes.
Proof.
  intros (size & Z & ->). split; [|reflexivity].
  unfold sound, open_on, yy_flushed. simpl. splits; try lia; try discriminate.
Qed.

(** ** A text, and a series of files *)

Definition small_file (files : str -> file_at) (p : str) : Prop :=
  forall bytes, files p = Contents bytes -> (Z.of_nat (length bytes) <= 2 ^ 30 - 2)%Z.

Theorem tokens_delivered reads bytes ts printed y : reads_ok reads -> idle y ->
  (Z.of_nat (length bytes) <= 2 ^ 30 - 2)%Z -> scans bytes ts printed ->
  delivered reads (open_on bytes y) ts printed /\
  forall ts' printed', delivered reads (open_on bytes y) ts' printed' -> ts' = ts /\ printed' = printed.
Proof.
  intros R I L Sc. destruct (sound_open bytes y I) as [Sy Ey].
  assert (D : delivered reads (open_on bytes y) ts printed).
  { apply (scans_delivered reads R ts bytes printed Sc); auto. unfold small. now rewrite Ey. }
  split; [exact D|]. apply delivered_unique. exact D.
Qed.

Theorem every_text_c reads files filename lval previous before bytes y :
  reads_ok reads -> idle y -> files filename = Contents bytes -> nonul bytes -> (Z.of_nat (length bytes) <= 2 ^ 30 - 2)%Z ->
  known before previous ->
  exists ts printed, scans bytes ts printed /\
    ((exists ds c y', config_text ts ds /\
        parse_config_file_c reads files filename lval previous y = (printed, Ok (Some c, y')) /\ idle y' /\
        in_force (before ++ map (pair filename) ds) c) \/
     ((forall ds, ~ config_text ts ds) /\ snd (parse_config_file_c reads files filename lval previous y) = Exit EXIT_FAILURE)).
Proof.
  intros R I F N L K. destruct (every_text files filename previous before bytes F N K) as (ts & printed & Sc & _ & H).
  exists ts, printed. split; [exact Sc|].
  destruct (parse_config_file_agrees reads files filename lval previous y R I) as [A B].
  { intros b Fb. rewrite F in Fb. injection Fb as <-. exact L. }
  destruct H as [(ds & c & G & E & Q)|(G & E)].
  - left. exists ds, c. rewrite E in A, B. cbn [fst snd] in A, B. destruct B as (y' & B & J). exists y'. splits; auto.
    rewrite <- A, <- B. apply surjective_pairing.
  - right. split; [exact G|]. rewrite E in B. exact B.
Qed.

(** Files one after the other with one scanner; each is read in its own way, and yylval may
    hold anything at the beginning of each. *)
Fixpoint read_all_c (files : str -> file_at) (paths : list (str * reader * value)) (previous : option config_t) (y : scanner)
  : wres (option config_t * scanner) :=
  match paths with
  | [] => ([], Ok (previous, y))
  | (p, reads, lval) :: rest =>
    wbind (parse_config_file_c reads files p lval previous y) (fun r => read_all_c files rest (fst r) (snd r))
  end.

Definition path_of (x : str * reader * value) : str := fst (fst x).

Theorem read_all_agrees files : forall paths previous y, idle y ->
  Forall (fun x => reads_ok (snd (fst x)) /\ small_file files (path_of x)) paths ->
  fst (read_all_c files paths previous y) = fst (read_all files (map path_of paths) previous) /\
  match snd (read_all files (map path_of paths) previous) with
  | Ok c => exists y', snd (read_all_c files paths previous y) = Ok (c, y') /\ idle y'
  | UB u => snd (read_all_c files paths previous y) = UB u
  | Exit c => snd (read_all_c files paths previous y) = Exit c
  end.
Proof.
  induction paths as [|[[p reads] lval] paths IH]; intros previous y I F; cbn [read_all read_all_c map].
  - cbn [fst snd]. eauto.
  - inversion F as [|? ? [R L] F']; subst. cbn [fst snd] in R. change (path_of (p, reads, lval)) with p in *.
    destruct (parse_config_file_agrees reads files p lval previous y R I L) as [A B].
    unfold wbind. destruct (parse_config_file files p previous) as [out [c|u|k]]; cbn [fst snd] in *.
    + destruct B as (y' & B & J). rewrite B. cbn [fst snd]. destruct (IH c y' J F') as [A' B']. rewrite A, A'. split; [reflexivity|exact B'].
    + rewrite B. cbn [fst snd]. auto.
    + rewrite B. cbn [fst snd]. auto.
Qed.

Lemma read_all_c_same files paths paths' previous y y' :
  idle y -> idle y' -> map path_of paths = map path_of paths' ->
  Forall (fun x => reads_ok (snd (fst x)) /\ small_file files (path_of x)) paths ->
  Forall (fun x => reads_ok (snd (fst x)) /\ small_file files (path_of x)) paths' ->
  fst (read_all_c files paths previous y) = fst (read_all_c files paths' previous y') /\
  match snd (read_all_c files paths previous y) with
  | Ok (c, _) => exists z, snd (read_all_c files paths' previous y') = Ok (c, z)
  | UB u => snd (read_all_c files paths' previous y') = UB u
  | Exit c => snd (read_all_c files paths' previous y') = Exit c
  end.
Proof.
  intros I I' E F F'. destruct (read_all_agrees files paths previous y I F) as [A B].
  destruct (read_all_agrees files paths' previous y' I' F') as [A' B']. rewrite <- E in A', B'.
  split; [congruence|]. destruct (snd (read_all files (map path_of paths) previous)) as [c|u|k].
  - destruct B as (z & -> & _). destruct B' as (z' & -> & _). eauto.
  - now rewrite B.
  - now rewrite B.
Qed.

Lemma series_result_c files paths ds : defined_in files (map path_of paths) ds ->
  Forall (fun x => reads_ok (snd (fst x)) /\ small_file files (path_of x)) paths ->
  exists printed c y, read_all_c files paths None yy_created = (printed, Ok (c, y)) /\
    match c with
    | Some c => in_force ds c /\ NoDup (map s_name (cf_sequences c))
    | None => ds = [] /\ forall p, In p (map path_of paths) -> files p = NoFile
    end.
Proof.
  intros D F. destruct (series_result files (map path_of paths) ds D) as (printed & c & E & H).
  destruct (read_all_agrees files paths None yy_created idle_created F) as [A B]. rewrite E in A, B. cbn [fst snd] in A, B.
  destruct B as (y & B & _). exists printed, c, y. split; [|exact H]. rewrite <- A, <- B. apply surjective_pairing.
Qed.
