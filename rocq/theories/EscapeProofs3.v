(** * Proofs about what escape-utf-8 makes of standard input *)

From Verif Require Import Warnings WarningsProofs Base BaseFacts Stdio Table TableSpec TableProofs BuiltinTables CleanString CleanSpec CleanUtf8 Utf8Spec
  CleanStringProofs CleanUtf8Proofs Filter Prog ProgFacts File ParseTableSpec GenBuiltin GenSpec GenProofs Inline InlineSpec
  InlineProofs FileSpec FileProofs MainSpec MainProofs PropInline Escape EscapeSpec EscapeProofs EscapeProofs2.

Local Open Scope nat_scope.

(** ** Text of any length *)

Lemma escape_unit_loose cp u : sequence u cp -> length (ttext generate_c_escape_table cp u) <= 13 * length u.
Proof.
  intros Q. pose proof (sequence_length u cp Q) as L1. destruct (N.eq_dec cp 0) as [->|Z].
  - replace (ttext generate_c_escape_table 0 u) with (bs "_hidden_null_") by reflexivity.
    change (length (bs "_hidden_null_")) with 13. lia.
  - destruct generated_table as (W & _ & _ & G). unfold ttext, table_text. destruct (table_get generate_c_escape_table cp) as [d|] eqn:E.
    + pose proof (get_maxdata _ _ _ W E). rewrite escape_maxdata in H. lia.
    + destruct (N.eqb_spec cp 0); [easy|]. destruct (N.ltb_spec 0x10FFFF cp) as [X|X]; [simpl; lia|].
      destruct (escape_entry_escapes cp ltac:(lia)) as (d & E' & _). rewrite G, E' in E. discriminate E.
Qed.

Lemma escape_read_loose s o : escape_read s o -> length o <= 13 * length s.
Proof.
  induction 1 as [|u cp s o Q H IH|c conts w s o W L F NS H IH|c s o W H IH].
  - simpl; lia.
  - rewrite !app_length. pose proof (escape_unit_loose cp u Q). lia.
  - cbn [length]. rewrite app_length. lia.
  - cbn [length]. lia.
Qed.

Definition escape_all (s : str) : str :=
  match utf_8_loop (length s) (N.of_nat (13 * length s)) generate_c_escape_table s [] with Ok acc => rev acc | _ => [] end.

Lemma escape_all_read s : escape_read s (escape_all s).
Proof.
  destruct (utf_8_loop_fuel generate_c_escape_table (N.of_nat (13 * length s)) (length s) s (le_n _)) as (o & R & E).
  unfold escape_all. rewrite E, wrs_spec by (simpl; lia).
  pose proof (escape_read_loose s o R) as L. cbn [length].
  destruct (N.leb_spec (N.of_nat (0 + length o)) (N.of_nat (13 * length s))) as [X|X]; [|lia].
  now rewrite app_nil_r, rev_involutive.
Qed.

Lemma escape_all_eq s o : escape_read s o -> escape_all s = o.
Proof. intros R. eapply utf8_read_fun; [apply escape_all_read|exact R]. Qed.

Lemma valid_units s : valid_utf8 s -> exists us, s = concat us /\ Forall (fun u => exists cp, sequence u cp) us.
Proof.
  intros (cps & F & ->). exists (map encode cps). split; [now rewrite flat_map_concat_map|].
  apply Forall_map. eapply Forall_impl; [|exact F]. intros cp H. exists cp. apply encode_sequence. now apply scalar_bound.
Qed.

Lemma escape_all_app a b : valid_utf8 a -> escape_all (a ++ b) = escape_all a ++ escape_all b.
Proof. intros V. apply escape_all_eq, read_seq_app; [now apply valid_units|apply escape_all_read|apply escape_all_read]. Qed.

Lemma escape_all_text cps : Forall (fun cp => scalar cp /\ cp <> 0%N) cps -> escaped_text cps (escape_all (flat_map encode cps)).
Proof. intros F. destruct (read_text cps F) as (o & R & T). now rewrite (escape_all_eq _ _ R). Qed.

Lemma escape_all_clean pf s : nonul s -> in_memory s ->
  sequence_run_filters (o_platform (escape_options pf)) (o_sequence_to_use (escape_options pf)) (Some s) = Ok (Some (escape_all s)).
Proof.
  intros N M. rewrite escape_sequence. destruct (escape_clean s N M) as (o & R & E & _). rewrite E. cbn [bind].
  now rewrite (escape_all_eq _ _ R).
Qed.

Lemma sequence_bytes u cp : sequence u cp -> (exists c, u = [c] /\ bN c = cp) \/ Forall (fun c => (0x80 <= bN c)%N) u.
Proof.
  intros [c conts w W L F]. unfold seq_width in W. destruct (N.ltb_spec (bN c) 0x80) as [X|X].
  - injection W as <-. destruct conts; [|discriminate]. left. exists c. split; auto. unfold seq_value, start_value. cbn [fold_left].
    destruct (N.ltb_spec (bN c) 0x80); [reflexivity|lia].
  - right. constructor; [exact X|]. eapply Forall_impl; [|exact F]. unfold continuation. lia.
Qed.

Lemma text_line_bytes cps : text_line cps -> line_text (flat_map encode cps) /\ valid_utf8 (flat_map encode cps) /\
  Forall (fun cp => scalar cp /\ cp <> 0%N) cps.
Proof.
  intros F. unfold text_line in F. splits.
  - assert (X : forall c, In c (flat_map encode cps) -> bN c <> 0%N /\ bN c <> 10%N).
    { intros c I. apply in_flat_map in I. destruct I as (cp & Ic & I). rewrite Forall_forall in F. destruct (F _ Ic) as (Sc & Z & NL).
      destruct (sequence_bytes _ _ (encode_sequence cp (scalar_bound _ Sc))) as [(x & E & V)|G].
      - rewrite E in I. destruct I as [<-|[]]. rewrite V. auto.
      - rewrite Forall_forall in G. specialize (G _ I). lia. }
    split; intros I; destruct (X _ I) as [A B]; [now apply A|now apply B].
  - exists cps. split; [|reflexivity]. eapply Forall_impl; [|exact F]. intros a (A & B & _). auto.
  - eapply Forall_impl; [|exact F]. intros a (A & B & _). auto.
Qed.

Lemma escape_lines pf ls last : Forall text_line ls -> text_line last ->
  escape_writes (escape_main pf) (concat (map (fun l => ended (flat_map encode l)) ls) ++ flat_map encode last)
    (concat (map (fun l => ended (escape_all (flat_map encode l))) ls) ++ escape_all (flat_map encode last)).
Proof.
  intros F Fl. apply escape_main_writes.
  pose proof (C31_whole_lines None (escape_options pf) escape_all (map (flat_map encode) ls) (flat_map encode last)) as H.
  rewrite !map_map in H. apply H.
  - intros a b V _. now apply escape_all_app.
  - apply escape_all_eq. change (bs ".") with (encode 46 ++ []) at 1.
    assert (T : ttext generate_c_escape_table 46 (encode 46) = bs ".").
    { destruct generated_table as (_ & _ & _ & G). unfold ttext, table_text. rewrite G. reflexivity. }
    pose proof (ur_seq (ttext generate_c_escape_table) (encode 46) 46 [] []) as U. rewrite T in U. apply U; [|constructor].
    apply encode_sequence. reflexivity.
  - intros l [N _] V L. apply escape_all_clean; auto. unfold in_memory, strlen. lia.
  - apply Forall_map. eapply Forall_impl; [|exact F]. intros l T. now apply text_line_bytes.
  - now apply text_line_bytes.
  - apply Forall_map. eapply Forall_impl; [|exact F]. intros l T. now apply text_line_bytes.
  - now apply text_line_bytes.
Qed.

(** ** Any bytes *)

(** [p] only reads standard input and prints, standard output gets bytes with [Q] only,
    and the only other thing that can happen is reading in front of the buffer. *)
Fixpoint well_behaved (Q : byte -> Prop) {A} (R : A -> Prop) (p : prog A) : Prop :=
  match p with
  | Ret a => R a
  | Stop w => w = StopUB BufferUnderread
  | Call c k =>
    match c with Print Stdout t => Forall Q t | Print _ _ => True | ReadStream None => True | _ => False end /\
    forall r, well_behaved Q R (k r)
  end.

Lemma well_behaved_bind Q {A B} (S : A -> Prop) (R : B -> Prop) (p : prog A) (f : A -> prog B) :
  well_behaved Q S p -> (forall a, S a -> well_behaved Q R (f a)) -> well_behaved Q R (pbind p f).
Proof. intros H F. induction p as [a|w|c k IH]; simpl in *; auto. destruct H. split; auto. Qed.

Lemma well_behaved_told Q {A} (R : A -> Prop) l (p : prog A) : on_stderr l -> well_behaved Q R p -> well_behaved Q R (told l p).
Proof.
  intros F H. induction F as [|[out text] l E _ IH]; [exact H|]. cbn in E. subst out. cbn [told well_behaved]. auto.
Qed.

Lemma well_behaved_trace Q {A} (S : A -> Prop) (p : prog A) : well_behaved Q S p -> forall tr p', trace_of p tr p' ->
  Forall Q (stdout_text tr) /\ well_behaved Q S p'.
Proof.
  unfold trace_of. induction p as [a|w|c k IH]; intros H tr p' R.
  - simpl in R. destruct R as [(-> & _ & ->)|[]]. split; [constructor|exact H].
  - simpl in R. destruct R as [(-> & _ & ->)|[]]. split; [constructor|exact H].
  - destruct R as [(-> & _ & ->)|(s0 & r & s1 & tr' & _ & _ & -> & R)]; [split; [constructor|exact H]|].
    destruct H as [Hc Hk]. destruct s1. destruct (IH r (Hk r) _ _ R) as [X Y]. split; [|exact Y].
    unfold stdout_text in *. cbn [flat_map].
    apply Forall_app. split; [|exact X].
    destruct c; try constructor. destruct out; [exact Hc|constructor].
Qed.

Lemma piece_text schar input p : read_piece schar input = Ok (Some p) -> nonul (pc_text p) /\ length (pc_text p) <= 1012.
Proof.
  intros E. assert (NE : input <> []) by (intros ->; discriminate).
  destruct (read_piece_cases schar input NE) as (b & rest & N & H). pose proof (cstr_length b) as Lb.
  assert (B : length b <= 1007) by (destruct N as (_ & _ & L & _); exact L).
  destruct H as [(t & E1 & E2 & E3 & E4 & H)|[(_ & _ & H)|(NL & C & add & rest' & w' & _ & _ & _ & H)]].
  - rewrite H in E. injection E as <-. cbn [pc_text]. split; [auto|]. try (rewrite E1 in *). rewrite ?app_length in *. simpl in *. lia.
  - rewrite H in E. discriminate.
  - destruct (read_part schar _ _ _ N NL C) as (add2 & rest2 & w2 & _ & _ & Nu & H2 & Cm).
    rewrite H2 in E. injection E as <-. cbn [pc_text].
    split; [apply nonul_app; split; [apply nonul_cstr|auto]|].
    destruct (complete_spec schar (cstr b) rest ltac:(lia)) as [_ K]. destruct (K C) as (add3 & rest3 & w3 & Cm3 & _ & La & _).
    rewrite Cm3 in Cm. injection Cm as Eq _ _. rewrite <- Eq, app_length. lia.
Qed.

Lemma escape_loop_behaves pf : forall n input, length input < n ->
  well_behaved (fun c => printable_ascii c \/ c = newline) (fun _ => True) (inline_loop n (escape_options pf) input).
Proof.
  induction n as [|n IH]; intros input L; [lia|]. cbn [inline_loop].
  destruct (read_piece (p_schar (o_platform (escape_options pf))) input) as [[p|]|why|code] eqn:E.
  - pose proof (read_piece_shrinks _ _ _ E) as Sh. destruct (piece_text _ _ _ E) as [Nu Lt]. cbn [lift pbind].
    apply (well_behaved_bind _ (fun _ => True)); [destruct (pc_warning p); simpl; auto|]. intros _ _.
    assert (Y : exists w, sequence_run_filters (o_platform (escape_options pf)) (o_sequence_to_use (escape_options pf))
        (if is_protected (pc_text p) then None else Some (pc_text p)) = Ok w /\
      Forall (fun c => printable_ascii c \/ c = newline) (match w with Some w => w | None => pc_text p end)).
    { destruct (is_protected (pc_text p)) eqn:P.
      - exists None. split; [reflexivity|]. apply is_protected_iff in P.
        assert (D : printable_ascii "."%byte) by (vm_compute; split; congruence).
        destruct P as [-> | ->]; repeat (apply Forall_cons; [left; exact D|]); constructor.
      - assert (M : in_memory (pc_text p)) by (unfold in_memory, strlen; lia).
        exists (Some (escape_all (pc_text p))). split; [now apply escape_all_clean|].
        destruct (escape_read_facts _ _ (escape_all_read (pc_text p)) Nu) as [F _].
        eapply Forall_impl; [|exact F]. auto. }
    rewrite talking_sequence, told_bind. apply well_behaved_told; [apply sequence_stderr|].
    destruct Y as (w & -> & F). cbn [lift pbind].
    apply (well_behaved_bind _ (fun _ => True)); [simpl; auto|]. intros _ _.
    apply (well_behaved_bind _ (fun _ => True)); [destruct (pc_newline p); simpl; auto|]. intros _ _. apply IH. lia.
  - exact Logic.I.
  - cbn [lift pbind well_behaved]. assert (NE : input <> []) by (intros ->; discriminate).
    destruct (read_piece_cases (p_schar (o_platform (escape_options pf))) input NE) as (b & rest & _ & H).
    destruct H as [(t & _ & _ & _ & _ & H)|[(_ & _ & H)|(_ & _ & add & rest' & w' & _ & _ & _ & H)]];
      rewrite H in E; try discriminate. injection E as <-. auto.
  - exfalso. assert (NE : input <> []) by (intros ->; discriminate).
    destruct (read_piece_cases (p_schar (o_platform (escape_options pf))) input NE) as (b & rest & _ & H).
    destruct H as [(t & _ & _ & _ & _ & H)|[(_ & _ & H)|(_ & _ & add & rest' & w' & _ & _ & _ & H)]];
      rewrite H in E; discriminate.
Qed.

Lemma escape_behaves pf : well_behaved (fun c => printable_ascii c \/ c = newline) (fun code => code = 0%N) (escape_main pf).
Proof.
  unfold escape_main. apply (well_behaved_bind _ (fun _ => True)); [|intros; reflexivity]. unfold parse_inline.
  apply (well_behaved_bind _ (fun _ => True)); [simpl; auto|]. intros [b|m] _; [|exact Logic.I]. apply escape_loop_behaves. lia.
Qed.

Lemma escape_any_input pf tr p' : trace_of (escape_main pf) tr p' ->
  Forall (fun c => printable_ascii c \/ c = newline) (stdout_text tr) /\
  match p' with
  | Ret code => code = 0%N
  | Stop w => w = StopUB BufferUnderread
  | Call c _ => c = ReadStream None \/ exists out text, c = Print out text
  end.
Proof.
  intros R. destruct (well_behaved_trace _ _ _ (escape_behaves pf) _ _ R) as [X Y]. split; [exact X|].
  destruct p' as [a|w|c k]; simpl in Y; auto. destruct Y as [Y _].
  destruct c; try (now destruct Y); [right; eauto|]. destruct path; [destruct Y|auto].
Qed.

(** ** One text for one character *)

Lemma positional_inj ds ds' : length ds = length ds' -> Forall (fun d => d < 16)%N ds -> Forall (fun d => d < 16)%N ds' ->
  positional 16 ds = positional 16 ds' -> ds = ds'.
Proof.
  revert ds'. induction ds as [|d ds IH] using rev_ind; intros ds' L F F' E.
  - destruct ds'; [reflexivity|discriminate].
  - destruct ds' as [|x l _] using rev_ind.
    { rewrite app_length in L. simpl in L. lia. }
    rewrite !app_length in L. simpl in L. apply Forall_app in F, F'. destruct F as [F Fd], F' as [F' Fd'].
    inversion Fd; subst. inversion Fd'; subst. rewrite !positional_snoc in E.
    assert (d = x) as -> by lia. f_equal. apply IH; auto; lia.
Qed.

Lemma upper_fun c c' d : In c (bs "0123456789ABCDEF") -> In c' (bs "0123456789ABCDEF") -> digit c d -> digit c' d -> c = c'.
Proof.
  intros I I' D D'.
  assert (X : forall c, In c (bs "0123456789ABCDEF") -> digit c d -> nth_error (bs "0123456789ABCDEF") (N.to_nat d) = Some c).
  { clear. intros c I [D|D]; [|exact D]. remember (N.to_nat d) as n. clear Heqn d.
    do 16 (destruct n as [|n]; [injection D as <-; first [reflexivity|exfalso; vm_compute in I;
      repeat (destruct I as [I|I]; [discriminate I|]); destruct I]|]). destruct n; discriminate D. }
  apply X in D; auto. apply X in D'; auto. rewrite D in D'. now injection D'.
Qed.

Lemma lower_fun c c' d : In c (bs "0123456789abcdef") -> In c' (bs "0123456789abcdef") -> digit c d -> digit c' d -> c = c'.
Proof.
  intros I I' D D'.
  assert (X : forall c, In c (bs "0123456789abcdef") -> digit c d -> nth_error (bs "0123456789abcdef") (N.to_nat d) = Some c).
  { clear. intros c I [D|D]; [exact D|]. remember (N.to_nat d) as n. clear Heqn d.
    do 16 (destruct n as [|n]; [injection D as <-; first [reflexivity|exfalso; vm_compute in I;
      repeat (destruct I as [I|I]; [discriminate I|]); destruct I]|]). destruct n; discriminate D. }
  apply X in D; auto. apply X in D'; auto. rewrite D in D'. now injection D'.
Qed.

Lemma digits_text (cs : str) s s' v : (forall c c' d, In c cs -> In c' cs -> digit c d -> digit c' d -> c = c') ->
  Forall (fun c => In c cs) s -> Forall (fun c => In c cs) s' -> length s = length s' ->
  digits 16 s v -> digits 16 s' v -> s = s'.
Proof.
  intros H F F' L (ds & D & B & E) (ds' & D' & B' & E').
  assert (X : ds = ds').
  { apply positional_inj; auto; [|congruence].
    rewrite <- (Forall2_same_length _ _ _ D), <- (Forall2_same_length _ _ _ D'). exact L. }
  subst ds'. clear E E' L B B' v. revert s' D' F'. induction D as [|c d s ds Dc D IH]; intros s' D' F'; inversion D'; subst; [reflexivity|].
  inversion F; subst. inversion F'; subst. f_equal; [eapply H; eauto|]. apply IH; auto.
Qed.

Lemma simple_char c c' v : simple_escape c v -> simple_escape c' v -> c = c'.
Proof.
  unfold simple_escape. cbn [In]. intros I J.
  repeat (destruct I as [I|I]; [injection I as <- <-; repeat (destruct J as [J|J]; [try discriminate J; injection J as <-; reflexivity|]); destruct J|]).
  destruct I.
Qed.

Lemma escapes_fun cp t t' : escapes cp t -> escapes cp t' -> t = t'.
Proof.
  intros H H'.
  destruct H as [cp P|cp c S|cp ds P L C D|cp ds P L C D|cp ds P L C D];
    inversion H' as [? P'|? c' S'|? ds' P' L' C' D'|? ds' P' L' C' D'|? ds' P' L' C' D']; subst;
    try (match goal with P : plain _ |- _ => destruct P as [? []]; eauto end; fail);
    try (match goal with P : hex_escaped _ |- _ => destruct P as [? []]; eauto end; fail);
    try (match goal with S : simple_escape _ _ |- _ => apply simple_value in S; lia end; fail);
    try (unfold plain, hex_escaped in *; lia).
  - reflexivity.
  - now rewrite (simple_char _ _ _ S S').
  - do 2 f_equal. eapply (digits_text _ _ _ cp lower_fun); eauto. congruence.
  - do 2 f_equal. eapply (digits_text _ _ _ cp upper_fun); eauto. congruence.
  - do 2 f_equal. eapply (digits_text _ _ _ cp upper_fun); eauto. congruence.
Qed.

Lemma escaped_fun cps out out' : escaped_text cps out -> escaped_text cps out' -> out = out'.
Proof.
  intros (ts & F & ->) (ts' & F' & ->). f_equal. revert ts' F'.
  induction F as [|cp t cps ts H F IH]; intros ts' F'; inversion F'; subst; [reflexivity|].
  f_equal; [eapply escapes_fun; eauto|auto].
Qed.

(** ** The output determines the text *)

Lemma escaped_line cps out : escaped_text cps out -> ~ In newline out.
Proof.
  intros (ts & F & ->) I. apply in_concat in I. destruct I as (t & It & I).
  assert (P : Forall (Forall printable_ascii) ts).
  { clear -F. induction F as [|cp t cps ts H F IH]; constructor; auto. apply (escapes_printable cp t H). }
  rewrite Forall_forall in P. specialize (P _ It). rewrite Forall_forall in P. specialize (P _ I). vm_compute in P. destruct P. congruence.
Qed.

Lemma lines_fun (rs rs' : list str) r r' : Forall (fun l => ~ In newline l) rs -> Forall (fun l => ~ In newline l) rs' ->
  ~ In newline r -> ~ In newline r' ->
  concat (map ended rs) ++ r = concat (map ended rs') ++ r' -> rs = rs' /\ r = r'.
Proof.
  assert (X : forall (a b c d : str), ~ In newline a -> ~ In newline c -> a ++ newline :: b = c ++ newline :: d -> a = c /\ b = d).
  { induction a as [|x a IH]; intros b [|y c] d Na Nc E; cbn [app] in E.
    - injection E as ->. auto.
    - injection E as <- _. elim Nc. now left.
    - injection E as -> _. elim Na. now left.
    - injection E as -> E. destruct (IH b c d) as [-> ->]; auto; [intros I; apply Na; now right|intros I; apply Nc; now right]. }
  assert (Y : forall (rs : list str) a r r', ~ In newline r -> concat (map ended (a :: rs)) ++ r' <> r).
  { intros rs0 a r0 r0' N E. apply N. rewrite <- E. cbn [map concat]. unfold ended. rewrite <- !app_assoc. apply in_or_app. right. now left. }
  intros F. revert rs'. induction F as [|a rs Na F IH]; intros rs' F' N N' E.
  - destruct F' as [|a' rs' Na' F']; [auto|]. cbn [map concat app] in E. symmetry in E. now apply Y in E.
  - destruct F' as [|a' rs' Na' F']; [now apply Y in E|].
    cbn [map concat] in E. unfold ended in E at 1 3. rewrite <- !app_assoc in E. cbn [app] in E. apply X in E; auto. destruct E as [-> E].
    destruct (IH _ F' N N' E) as [-> ->]. auto.
Qed.

Lemma output_determines ls last rs rlast ls' last' rs' rlast' :
  Forall2 escaped_text ls rs -> escaped_text last rlast -> Forall2 escaped_text ls' rs' -> escaped_text last' rlast' ->
  concat (map ended rs) ++ rlast = concat (map ended rs') ++ rlast' -> ls = ls' /\ last = last'.
Proof.
  intros F L F' L' E.
  assert (N : forall ls rs, Forall2 escaped_text ls rs -> Forall (fun l => ~ In newline l) rs).
  { clear. induction 1; constructor; auto. eapply escaped_line; eauto. }
  apply lines_fun in E; eauto using escaped_line. destruct E as [<- <-].
  split; [|eapply escaped_injective; eauto].
  clear -F F'. revert ls' F'. induction F as [|l r ls rs H F IH]; intros ls' F'; inversion F'; subst; [reflexivity|].
  f_equal; [eapply escaped_injective; eauto|auto].
Qed.
