(** * Which undefined behaviour a run can end with *)

From Verif Require Import Base BaseFacts Stdio Table CleanString CleanUtf8 Filter Spoof Filelist FilelistProofs Prog ProgFacts Warnings WarningsProofs File FileSpec FileProofs Inline InlineProofs
  ConfigParse ConfigSpec ConfigLoad ConfigLoadSpec Options OptionsSpec Startup Main MainSpec MainProofs StartSpec StartProofs5.

Local Open Scope nat_scope.

(** ** The filters *)

Definition only_overflow {A} (r : res A) : Prop := forall u, r = UB u -> u = BufferOverflow.

Lemma overflow_ok {A} (a : A) : only_overflow (Ok a).
Proof. intros u. discriminate. Qed.

Lemma overflow_exit {A} n : only_overflow (@Exit A n).
Proof. intros u. discriminate. Qed.

Lemma overflow_bind {A B} (r : res A) (k : A -> res B) : only_overflow r -> (forall a, only_overflow (k a)) -> only_overflow (do x <- r; k x).
Proof. intros H K. destruct r as [a|u|n]; cbn [bind]; [apply K| |apply overflow_exit]. intros v [= <-]. now apply H. Qed.

Lemma overflow_wr cap acc b : only_overflow (wr cap acc b).
Proof. unfold wr. destruct (_ <? _)%N; [apply overflow_ok|]. now intros u [= <-]. Qed.

Lemma overflow_wrs cap s : forall acc, only_overflow (wrs cap acc s).
Proof. induction s as [|c s IH]; intros acc; cbn [wrs]; [apply overflow_ok|]. apply overflow_bind; [apply overflow_wr|exact IH]. Qed.

Lemma overflow_finish cap acc : only_overflow (finish cap acc).
Proof. apply overflow_bind; [apply overflow_wr|intros; apply overflow_ok]. Qed.

#[local] Hint Resolve overflow_ok overflow_exit overflow_bind overflow_wr overflow_wrs overflow_finish : overflow.

Ltac cases := repeat match goal with |- only_overflow (match ?x with _ => _ end) => destruct x end.

Lemma overflow_iso cap t s : forall acc, only_overflow (iso8859_1_loop cap t s acc).
Proof. induction s as [|c s IH]; intros acc; cbn [iso8859_1_loop]; cases; auto with overflow. Qed.

Lemma overflow_safe schar cap t s : forall acc, only_overflow (safe_loop schar cap t s acc).
Proof. induction s as [|c s IH]; intros acc; cbn [safe_loop]; cases; auto with overflow. Qed.

Lemma uncgi_one cap c rest acc : uncgi_loop cap (c :: rest) acc =
  match rest with
  | h1 :: (h2 :: rest2) =>
    if beq c "%" && isxdigit h1 && isxdigit h2 then do a <- wr cap acc (Nb (hexval h1 * 16 + hexval h2)); uncgi_loop cap rest2 a
    else if beq c "+" then do a <- wr cap acc " "; uncgi_loop cap rest a else do a <- wr cap acc c; uncgi_loop cap rest a
  | _ => if beq c "+" then do a <- wr cap acc " "; uncgi_loop cap rest a else do a <- wr cap acc c; uncgi_loop cap rest a
  end%byte.
Proof. now destruct rest as [|h1 [|h2 rest]]. Qed.

Lemma overflow_uncgi cap : forall n s acc, length s <= n -> only_overflow (uncgi_loop cap s acc).
Proof.
  induction n as [|n IH]; intros [|c s] acc L; cbn [length] in L; try lia; try apply overflow_ok. rewrite uncgi_one.
  destruct s as [|a [|b s]]; cbn [length] in L; cases; apply overflow_bind; auto with overflow; intros; apply IH; cbn [length]; lia.
Qed.

Lemma overflow_wipeup cap search s : forall current acc, only_overflow (wipeup_loop cap search s current acc).
Proof.
  induction s as [|c s IH]; intros current acc; cbn [wipeup_loop]; [destruct current; auto with overflow|].
  destruct (strchr_idx search c 0); [apply IH|]. apply overflow_bind; [destruct current; auto with overflow|]. auto with overflow.
Qed.

Lemma overflow_lower ct cap s : forall acc, only_overflow (lower_loop ct cap s acc).
Proof. induction s as [|c s IH]; intros acc; cbn [lower_loop]; [apply overflow_ok|]. apply overflow_bind; [destruct (ct_isupper ct c)|]; auto with overflow. Qed.

Lemma overflow_utf_8 cap t : forall fuel s acc, only_overflow (utf_8_loop fuel cap t s acc).
Proof. induction fuel as [|fuel IH]; intros [|c s] acc; cbn [utf_8_loop]; cases; auto with overflow. Qed.

Lemma overflow_max s m : only_overflow (clean_max_length s m).
Proof. unfold clean_max_length. cbv zeta. cases; auto with overflow; intros u [= <-]; reflexivity. Qed.

Lemma overflow_filter pf f s : only_overflow (filter_run pf f s).
Proof.
  unfold filter_run. destruct s as [s|]; [|apply overflow_ok]. cbv zeta. destruct (f_cleaner f); auto with overflow; apply overflow_bind; auto with overflow.
  - unfold clean_iso8859_1. destruct (f_table f); auto with overflow. apply overflow_bind; [apply overflow_iso|auto with overflow].
  - apply overflow_bind; [apply overflow_lower|auto with overflow].
  - apply overflow_max.
  - unfold clean_safe. destruct (f_table f); auto with overflow. apply overflow_bind; [apply overflow_safe|auto with overflow].
  - apply overflow_bind; [now apply (overflow_uncgi _ (length s))|auto with overflow].
  - unfold clean_utf_8. destruct (f_table f); auto with overflow. apply overflow_bind; [apply overflow_utf_8|auto with overflow].
  - apply overflow_bind; [apply overflow_wipeup|auto with overflow].
Qed.

Lemma overflow_sequence pf seq s : only_overflow (sequence_run_filters pf seq s).
Proof.
  unfold sequence_run_filters. destruct seq as [[name fs src]|]; [|apply overflow_exit]. destruct s as [s|]; [|apply overflow_ok]. cbn [s_filters].
  generalize (Some s). clear. induction fs as [|f fs IH]; intros [s|]; cbn [run_filters]; auto with overflow.
  apply overflow_bind; [apply overflow_filter|exact IH].
Qed.

(** ** Programs *)

Fixpoint stopping {A} (P : stop -> Prop) (Q : A -> Prop) (p : prog A) : Prop :=
  match p with
  | Ret a => Q a
  | Stop w => P w
  | Call c k => forall r, stopping P Q (k r)
  end.

Lemma stopping_bind {A B} P (Q : A -> Prop) (Q' : B -> Prop) p f :
  stopping P Q p -> (forall a, Q a -> stopping P Q' (f a)) -> stopping P Q' (pbind p f).
Proof. intros H K. induction p as [a|w|c k IH]; cbn [pbind stopping] in *; auto. Qed.

Lemma stopping_sys {B} P (Q : B -> Prop) c (f : answer c -> prog B) : (forall r, stopping P Q (f r)) -> stopping P Q (pbind (sys c) f).
Proof. exact (fun H => H). Qed.

Lemma stopping_told {A} P (Q : A -> Prop) l p : stopping P Q p -> stopping P Q (told l p).
Proof. intros H. induction l as [|[out text] l IH]; cbn [told stopping]; auto. Qed.

Lemma stopping_run {A S} (step : S -> forall c, answer c -> S -> Prop) (interference : S -> S -> Prop) P (Q : A -> Prop) p : stopping P Q p ->
  forall s tr s' p', runs step interference p s tr s' p' -> stopping P Q p'.
Proof.
  induction p as [a|w|c k IH]; intros H s tr s' p' R; cbn [runs stopping] in *.
  - now destruct R as [(-> & -> & ->)|[]].
  - now destruct R as [(-> & -> & ->)|[]].
  - destruct R as [(-> & -> & ->)|(s0 & r & s1 & tr' & I & St & -> & R)]; [exact H|]. eapply IH; eauto.
Qed.

Definition overflows (w : stop) : Prop := forall u, w = StopUB u -> u = BufferOverflow.
Definition overflows_or_underreads (w : stop) : Prop := forall u, w = StopUB u -> u = BufferOverflow \/ u = BufferUnderread.

Lemma stopping_sequence pf seq s (P : stop -> Prop) : (forall w, overflows w -> P w) -> stopping P (fun _ => True) (talking (sequence_run_says pf seq s)).
Proof.
  intros H. unfold talking. apply stopping_told. pose proof (overflow_sequence pf seq s) as O. rewrite <- sequence_result in O.
  destruct (snd (sequence_run_says pf seq s)) as [a|u|n]; cbn [lift stopping]; auto; apply H.
  - intros v [= <-]. now apply O.
  - intros v. discriminate.
Qed.

Lemma stopping_file filename o : stopping overflows (fun _ => True) (parse_file filename o).
Proof.
  unfold parse_file. destruct (split_path filename) as [dir base]. eapply stopping_bind; [now apply stopping_sequence|]. intros [work|] _; [|exact I].
  destruct (str_eqb base work); [exact I|]. intros [old|m]; [|exact I]. intros new. cbn [pbind].
  destruct (match new with inl new => is_other_file old new | inr _ => false end); [intros []; exact I|].
  eapply stopping_bind with (Q := fun _ => True); [destruct (_ || _)%bool; [intros []|]; exact I|]. intros _ _. destruct (o_dry_run o); [exact I|]. intros [m|]; [intros []|]; exact I.
Qed.

Lemma stopping_dir o : forall fuel,
  (forall filename ign, ogood ign -> stopping overflows ogood (parse_dir fuel o filename ign)) /\
  (forall filename handle st ign, ogood ign -> stopping overflows ogood (dir_loop fuel o filename handle st ign)).
Proof.
  induction fuel as [|fuel [IH1 IH2]]; (split; [intros filename ign G|intros filename handle st ign G]); cbn [parse_dir dir_loop]; try (intros u; discriminate).
  - apply stopping_sys. intros [st|m]; [|exact G]. destruct (isdir st); [|exact G]. cbn [negb]. apply stopping_sys. intros [handle|emfile m].
    + eapply stopping_bind; [apply IH2, G|]. intros ign' G'. apply stopping_sys. intros []. exact G'.
    + apply stopping_sys. intros []. destruct emfile; [intros u; discriminate|exact G].
  - apply stopping_sys. intros [d_name|]; [|exact G]. destruct (ignore_file_ok d_name ign G) as (b & ign' & E). rewrite E. cbn [pbind lift].
    apply ignore_file_result in E; [|exact G]. destruct E as (G' & _). destruct b; [now apply IH2|].
    apply stopping_sys. intros st'. eapply stopping_bind with (Q := ogood); [|intros; now apply IH2].
    destruct (isdir _); [|destruct (_ || _)%bool; [|exact G']].
    + eapply stopping_bind; [apply stopping_file|]. intros work _. destruct (o_recurse o); [now apply IH1|exact G'].
    + eapply stopping_bind; [apply stopping_file|]. intros work _. exact G'.
Qed.

Lemma stopping_arguments fuel o : forall files ign, ogood ign -> stopping overflows ogood (process_arguments fuel o files ign).
Proof.
  induction files as [|f files IH]; intros ign G; cbn [process_arguments]; [exact G|].
  eapply stopping_bind with (Q := ogood); [|exact IH]. unfold process_argument.
  eapply stopping_bind with (Q := fun _ => True); [destruct (_ <? _)%N; [intros []|]; exact I|]. intros _ _. apply stopping_sys. intros [st|m]; [|intros []; exact G].
  destruct (isdir st); [|destruct (_ || _)%bool; [|exact G]].
  - eapply stopping_bind; [apply stopping_file|]. intros work _. now apply (proj1 (stopping_dir o fuel)).
  - eapply stopping_bind; [apply stopping_file|]. intros work _. exact G.
Qed.

Lemma stopping_inline_loop o : forall fuel input, stopping overflows_or_underreads (fun _ => True) (inline_loop fuel o input).
Proof.
  induction fuel as [|fuel IH]; intros input; cbn [inline_loop]; [intros u; discriminate|].
  destruct (read_piece (p_schar (o_platform o)) input) as [[p|]|u|n] eqn:E; cbn [lift pbind stopping]; [|exact I| |intros u; discriminate].
  - eapply stopping_bind with (Q := fun _ => True); [destruct (pc_warning p); [intros []|]; exact I|]. intros _ _.
    eapply stopping_bind; [apply stopping_sequence; intros w H u E'; left; now apply H|]. intros r _. apply stopping_sys. intros [].
    eapply stopping_bind with (Q := fun _ => True); [destruct (pc_newline p); [intros []|]; exact I|]. intros _ _. apply IH.
  - intros v [= <-]. right. destruct input as [|c input]; [discriminate|].
    destruct (read_piece_cases (p_schar (o_platform o)) (c :: input) ltac:(discriminate)) as (b & r & N & H).
    destruct H as [(t & Ec & Eb & Nt & U & R)|[(NL & C & R)|(NL & C & add & rest' & w & -> & _ & _ & R)]]; rewrite R in E; try discriminate. now injection E.
Qed.

Lemma stopping_parse_inline f o : stopping overflows_or_underreads (fun _ => True) (parse_inline f o).
Proof. unfold parse_inline. apply stopping_sys. intros [bytes|m]; [apply stopping_inline_loop|]. destruct f; [intros []|]; exact I. Qed.

Lemma stopping_inline_arguments o files : stopping overflows_or_underreads (fun _ => True) (inline_arguments o files).
Proof.
  induction files as [|f files IH]; cbn [inline_arguments]; [exact I|]. apply stopping_sys. intros st.
  eapply stopping_bind with (Q := fun _ => True); [|intros _ _; exact IH]. destruct st as [st|m]; [|intros []; exact I]. destruct (isdir st); [intros []; exact I|]. apply stopping_parse_inline.
Qed.

(** ** The whole program *)

Lemma configured_stop env file said w : configured env file said (Gives_up w) -> forall u, w = StopUB u -> u = ReadPastEnd.
Proof.
  assert (F : forall f n b sd e, file_read f n b sd e -> forall w u, e = Gives_up w -> w = StopUB u -> u = ReadPastEnd).
  { intros f n b sd e [] w0 u; congruence. }
  assert (G : forall fs n ps sd e, files_read fs n ps sd e -> forall w u, e = Gives_up w -> w = StopUB u -> u = ReadPastEnd).
  { intros fs n ps sd e H. induction H; intros wx u E E'; try congruence; eauto. }
  intros C. inversion C; subst; intros u E; [discriminate| |]; eapply G; eauto.
Qed.

Lemma start_stop s argv said w : opens s argv said (Over w) -> forall u, w = StopUB u -> u = ReadPastEnd.
Proof. intros O. inversion O; subst; intros u E; try discriminate. eapply configured_stop; eauto. Qed.

(** What stops the whole program. *)
Lemma main_stop fuel s argv tr u : trace_of (main fuel s argv) tr (Stop (StopUB u)) ->
  (u = ReadPastEnd /\ exists said, opens s argv said (Over (StopUB u)) /\ tr = map heard said) \/
  (exists ws fs o c, started s argv ws fs o c /\ (u = BufferOverflow \/ u = BufferUnderread /\ o_is_inline_mode o = true)).
Proof.
  intros T. destruct (opens_exists s argv) as (said & [w|ws fs c] & O).
  - destruct (over_traces _ _ _ _ O fuel tr) as [E _]. apply E in T. destruct T as [-> <-]. left. split; [exact (start_stop _ _ _ _ O _ eq_refl)|]. eauto.
  - right. destruct (opens_work _ _ _ _ _ _ O) as (o & St & _ & E). exists ws, fs, o, c. split; [exact St|]. rewrite E in T. unfold work in T.
    destruct (o_is_inline_mode o) eqn:Im; cbn [negb] in T.
    + assert (H : stopping overflows_or_underreads (fun _ => True) (told said (match fs with
        | [] => let! _ := parse_inline None o in Ret EXIT_SUCCESS
        | _ => let! _ := inline_arguments o fs in Ret EXIT_SUCCESS end))).
      { apply stopping_told. destruct fs; eapply stopping_bind; try apply stopping_parse_inline; try apply stopping_inline_arguments; intros; exact I. }
      apply (stopping_run _ _ _ _ _ H) in T. destruct (T u eq_refl); auto.
    + assert (H : stopping overflows (fun _ => True) (told said (let! _ := process_arguments fuel o fs (o_files_to_ignore o) in Ret EXIT_SUCCESS))).
      { apply stopping_told. eapply stopping_bind; [apply stopping_arguments, usable_good, (proj1 (st_ignore _ _ _ _ _ _ St))|]. intros; exact I. }
      apply (stopping_run _ _ _ _ _ H) in T. left. now apply T.
Qed.
