(** * Runs in inline mode have the shape described in InlineRunSpec.v *)

From Verif Require Import Warnings WarningsProofs Base BaseFacts Stdio CleanSpec CleanUtf8 Utf8Spec CleanStringProofs CleanUtf8Proofs Filter SequenceProofs Filelist
  Prog ProgFacts File FS FileSpec FileProofs FileProofs2 Inline InlineSpec InlineProofs ConfigParse ConfigLoad ConfigLoadSpec Options OptionsSpec
  ConfigLex Startup StartProofs StartOptions Main MainSpec MainProofs RunSpec RunProofs RunProofs3 InlineRunSpec.

Local Open Scope nat_scope.

(** ** The next piece *)

Lemma first_lead c c' : ~ continuation c -> ~ continuation c' -> forall x y a b,
  Forall continuation x -> Forall continuation y -> x ++ c :: a = y ++ c' :: b -> x = y /\ c = c' /\ a = b.
Proof.
  intros C C'. induction x as [|d x IH]; intros [|d' y] a b Fx Fy E; cbn [app] in E.
  - injection E as -> ->. auto.
  - injection E as -> _. inversion Fy; contradiction.
  - injection E as -> _. inversion Fx; contradiction.
  - injection E as -> E. inversion Fx; subst. inversion Fy; subst. destruct (IH y a b) as (-> & -> & ->); auto.
Qed.

Lemma rev_middle (q : list byte) c k : rev (q ++ c :: k) = rev k ++ c :: rev q.
Proof. rewrite rev_app_distr. cbn [rev]. now rewrite <- app_assoc. Qed.

Lemma last_lead q c k q' c' k' : Forall continuation k -> Forall continuation k' -> ~ continuation c -> ~ continuation c' ->
  q ++ c :: k = q' ++ c' :: k' -> q = q' /\ c = c' /\ k = k'.
Proof.
  intros F F' C C' E. apply (f_equal (@rev byte)) in E. rewrite !rev_middle in E.
  destruct (first_lead c c' C C' _ _ _ _ (Forall_rev F) (Forall_rev F') E) as (A & -> & B).
  rewrite <- (rev_involutive k), <- (rev_involutive q), A, B, !rev_involutive. auto.
Qed.

Lemma unfinished_unique b m m' : unfinished b m -> unfinished b m' -> m = m'.
Proof.
  intros (q & c & k & w & -> & F & W & L & _) (q' & c' & k' & w' & E & F' & W' & L' & _).
  destruct (last_lead _ _ _ _ _ _ F F' (width_not_cont _ _ W) (width_not_cont _ _ W') E) as (-> & -> & ->).
  rewrite W in W'. injection W' as <-. lia.
Qed.

Lemma returned_not schar c : returned schar c -> continuation c -> False.
Proof. intros [A _] B. auto. Qed.

Lemma xff_not : ~ continuation xff.
Proof. intros [_ H]. vm_compute in H. discriminate. Qed.

Lemma completed_fun schar b rest a1 w1 r1 a2 w2 r2 :
  completed schar b rest a1 w1 r1 -> completed schar b rest a2 w2 r2 -> a1 = a2 /\ w1 = w2 /\ r1 = r2.
Proof.
  assert (P : forall x y rx ry m, x ++ rx = y ++ ry -> Forall continuation x -> Forall continuation y -> length x <= m -> length y <= m ->
     (length x = m \/ match rx with c :: _ => returned schar c | [] => True end) ->
     (length y = m \/ match ry with c :: _ => returned schar c | [] => True end) -> x = y /\ rx = ry).
  { induction x as [|c x IH]; intros [|d y] rx ry m E Fx Fy Lx Ly Hx Hy; cbn [app length] in *; auto.
    - destruct Hx as [<-|Hx]; [lia|]. subst rx. inversion Fy; subst. now elim (returned_not schar d).
    - destruct Hy as [<-|Hy]; [lia|]. subst ry. inversion Fx; subst. now elim (returned_not schar c).
    - injection E as -> E. inversion Fx; subst. inversion Fy; subst. destruct m as [|m]; [lia|].
      destruct (IH y rx ry m E) as [-> ->]; auto; try lia; [destruct Hx; [left; lia|auto]|destruct Hy; [left; lia|auto]]. }
  assert (Q : forall x y rx ry m, x ++ rx = y ++ xff :: ry -> Forall continuation x -> Forall continuation y -> length y < m -> schar = true ->
     (length x = m \/ match rx with c :: _ => returned schar c | [] => True end) -> False).
  { induction x as [|c x IH]; intros [|d y] rx ry m E Fx Fy Ly Sc Hx; cbn [app length] in *.
    - destruct Hx as [<-|Hx]; [lia|]. subst rx. destruct Hx as [_ Hx]. auto.
    - destruct Hx as [<-|Hx]; [lia|]. subst rx. inversion Fy; subst. now elim (returned_not true d).
    - injection E as -> _. inversion Fx; subst. now elim xff_not.
    - injection E as -> E. inversion Fx; subst. inversion Fy; subst. destruct m as [|m]; [lia|].
      apply (IH y rx ry m E); auto; [lia|]. destruct Hx; [left; lia|auto]. }
  intros H1 H2.
  destruct H1 as [N1|m1 x1 y1 U1 E1 F1 L1 S1|m1 x1 y1 U1 E1 F1 L1 S1]; destruct H2 as [N2|m2 x2 y2 U2 E2 F2 L2 S2|m2 x2 y2 U2 E2 F2 L2 S2];
    auto; try (now elim (N1 _ U2)); try (now elim (N2 _ U1)); pose proof (unfinished_unique _ _ _ U1 U2); subst m2.
  - destruct (P x1 x2 y1 y2 m1) as [-> ->]; auto. exact (eq_trans (eq_sym E1) E2).
  - exfalso. apply (Q x1 x2 y1 y2 m1); auto. exact (eq_trans (eq_sym E1) E2).
  - exfalso. apply (Q x2 x1 y2 y1 m1); auto. exact (eq_trans (eq_sym E2) E1).
  - destruct (first_lead xff xff xff_not xff_not x1 x2 y1 y2 F1 F2) as (-> & _ & ->); auto. exact (eq_trans (eq_sym E1) E2).
Qed.

Lemma seek_ahead_conts n : forall conts, Forall continuation conts -> seek_ahead n conts = (n - length conts, skipn n conts).
Proof.
  induction n as [|n IH]; intros [|c conts] F; simpl; auto.
  rewrite is_cont. inversion F; subst. rewrite (proj2 (contb_iff c)) by assumption. now apply IH.
Qed.

Lemma bring_in_completed schar n : forall base input, length base + n < INLINE_BUF_SIZE ->
  (exists add rest, bring_in schar n base input = Ok (base ++ add, rest, false) /\ input = add ++ rest /\ Forall continuation add /\
     length add <= n /\ (length add = n \/ match rest with c :: _ => returned schar c | [] => True end)) \/
  (exists add rest, bring_in schar n base input = Ok (base ++ add ++ [xff], rest, true) /\ input = add ++ xff :: rest /\
     Forall continuation add /\ length add < n /\ schar = true).
Proof.
  assert (P : forall base, length base < INLINE_BUF_SIZE -> poke base = Ok tt).
  { intros base L. unfold poke. now rewrite (proj2 (Nat.ltb_lt _ _) L). }
  induction n as [|n IH]; intros base input L; simpl.
  { rewrite P by lia. left. exists [], input. rewrite app_nil_r. splits; auto. }
  destruct input as [|c rest].
  { rewrite P by lia. left. exists [], []. rewrite app_nil_r. splits; auto. simpl. lia. }
  rewrite P by lia. simpl bind. rewrite is_cont. destruct (contb c) eqn:Ec.
  - apply contb_iff in Ec. destruct (IH (base ++ [c]) rest) as [(add & rest' & E & -> & F & La & Ha)|(add & rest' & E & -> & F & La & Ha)].
    { rewrite app_length. simpl. lia. }
    + left. exists (c :: add), rest'. rewrite E, <- app_assoc. splits; auto; simpl; [lia|]. destruct Ha; auto.
    + right. exists (c :: add), rest'. rewrite E, <- app_assoc. splits; auto. simpl. lia.
  - assert (NC : ~ continuation c) by (intros X; apply contb_iff in X; congruence).
    destruct (schar && beq c xff)%bool eqn:Ew.
    + apply andb_true_iff in Ew. destruct Ew as [Sc Ew]. apply beq_eq in Ew. subst c.
      rewrite P by (rewrite app_length; simpl; lia). right. exists [], rest. splits; auto. simpl. lia.
    + left. exists [], (c :: rest). rewrite app_nil_r. splits; auto; [simpl; lia|]. right. split; auto.
      intros [-> ->]. discriminate.
Qed.

Lemma complete_exact schar b input : length b <= 1007 -> ~ only_continuation b ->
  exists add w rest, complete schar b input = Ok (b ++ add, rest, w) /\ completed schar b input add w rest.
Proof.
  intros Lb NO. unfold complete. change (UTF_8_MAX_LENGTH - 1) with 5.
  pose proof (seek_back_spec 5 (rev b) []) as S.
  destruct (seek_back 5 (rev b) []) as [[c after]|w|] eqn:E; [| |destruct S].
  2:{ exfalso. destruct S as (-> & L & F). rewrite rev_length in L. apply NO. split; [lia|]. apply Forall_rev in F. now rewrite rev_involutive in F. }
  destruct S as (conts & p & R & -> & Lc & Fc & M). rewrite app_nil_r. cbn [bind].
  assert (Eb : b = rev p ++ c :: rev conts) by (rewrite <- (rev_involutive b), R; apply rev_middle). clear R E.
  apply Forall_rev in Fc.
  assert (K : (forall m, ~ unfinished b m) -> exists add w rest, Ok (b, input, false) = Ok (b ++ add, rest, w) /\ completed schar b input add w rest).
  { intros N. exists [], false, input. rewrite app_nil_r. split; [reflexivity|]. now constructor. }
  destruct (is_utf_8_start c) eqn:Es.
  - apply is_start_width in Es. assert (NC : ~ continuation c) by (unfold continuation; lia).
    assert (U : forall m, unfinished b m -> exists w, seq_width c = Some w /\ length conts + m = w - 1 /\ 0 < m).
    { intros m (q & c' & k & w & E' & F' & W' & L' & Pm). rewrite Eb in E'.
      destruct (last_lead _ _ _ _ _ _ Fc F' NC (width_not_cont _ _ W') E') as (_ & <- & <-). rewrite rev_length in L'. eauto. }
    destruct (get_utf_8_width c) as [w|] eqn:W; rewrite width_spec in W.
    2:{ apply K. intros m X. destruct (U m X) as (w & W' & _). congruence. }
    pose proof (width_bound _ _ W) as Wb. rewrite (seek_ahead_conts _ _ Fc), rev_length.
    destruct (w - 1 - length conts) as [|m] eqn:Em.
    { apply K. intros m X. destruct (U m X) as (w' & W' & L' & Pm). rewrite W in W'. injection W' as <-. lia. }
    rewrite skipn_all2 by (rewrite rev_length; lia).
    assert (X : unfinished b (S m)).
    { exists (rev p), c, (rev conts), w. rewrite rev_length. splits; auto; lia. }
    destruct (bring_in_completed schar (S m) b input) as [(add & rest & E & -> & F & La & Ha)|(add & rest & E & -> & F & La & Ha)].
    { unfold INLINE_BUF_SIZE. lia. }
    + exists add, false, rest. split; auto. eapply cp_continued; eauto.
    + exists (add ++ [xff]), true, rest. split; auto. eapply cp_stuck; eauto.
  - apply K. intros m (q & c' & k & w & E' & F' & W' & L' & Pm).
    assert (Hc : (bN c < 0xC0)%N).
    { destruct (N.lt_ge_cases (bN c) 0xC0) as [H|H]; auto. apply is_start_width in H. congruence. }
    destruct (N.lt_ge_cases (bN c) 0x80) as [H|H].
    + assert (NC : ~ continuation c) by (unfold continuation; lia). rewrite Eb in E'.
      destruct (last_lead _ _ _ _ _ _ Fc F' NC (width_not_cont _ _ W') E') as (_ & <- & <-).
      unfold seq_width in W'. rewrite (proj2 (N.ltb_lt _ _) H) in W'. injection W' as <-. lia.
    + assert (C : continuation c) by (split; auto). specialize (M C).
      pose proof (width_bound _ _ W') as Wb.
      assert (G : forall (t k : list byte) p q, Forall continuation t -> t ++ p = k ++ c' :: q -> length t <= length k).
      { clear -W'. induction t as [|d t IH]; intros k p q F E; [simpl; lia|]. destruct k as [|d' k]; cbn [app] in E.
        - injection E as -> _. inversion F; subst. now elim (width_not_cont _ _ W').
        - injection E as -> E. inversion F; subst. simpl. apply IH in E; auto. lia. }
      specialize (G (rev (rev conts) ++ [c]) (rev k) (p) (rev q)). rewrite app_length, !rev_length, M in G.
      assert (6 <= length k); [|lia]. apply G.
      * apply Forall_app. split; [now apply Forall_rev|auto].
      * rewrite <- app_assoc. cbn [app]. apply (f_equal (@rev byte)) in E'. rewrite Eb, !rev_middle, (rev_involutive p) in E'. exact E'.
Qed.

Lemma next_read_fun input b r b' r' : next_read input b r -> next_read input b' r' -> b = b' /\ r = r'.
Proof. intros N N'. apply next_fgets in N, N'. rewrite N in N'. now injection N'. Qed.

Lemma cstr_line t : nonul t -> cstr (t ++ [newline]) = t ++ [newline].
Proof. intros U. apply cstr_nonul. apply nonul_app. split; auto. intros [X|[]]; discriminate. Qed.

Lemma piece_iff schar input t nl w rest :
  piece_of schar input t nl w rest <-> read_piece schar input = Ok (Some (mkPiece t nl w rest)).
Proof.
  assert (Fw : piece_of schar input t nl w rest -> read_piece schar input = Ok (Some (mkPiece t nl w rest))).
  { intros [t' rest' N U|bytes behind add w' rest' N NL NO C].
    - now apply read_line.
    - destruct (read_part schar _ _ _ N NL NO) as (a & r & x & _ & _ & _ & R & Cm).
      destruct (complete_exact schar (cstr bytes) behind) as (a2 & w2 & r2 & E & C2); auto.
      { destruct N as (_ & _ & L & _). pose proof (cstr_length bytes). lia. }
      destruct (completed_fun _ _ _ _ _ _ _ _ _ C C2) as (-> & -> & ->). rewrite R. rewrite Cm in E. injection E as E1 -> ->.
      now rewrite E1. }
  split; auto. intros R.
  assert (NE : input <> []) by (intros ->; discriminate).
  destruct (read_piece_cases schar input NE) as (b & r & N & [(t' & _ & -> & _ & U & H)|[(_ & _ & H)|(NL & NO & _)]]).
  - rewrite H in R. injection R as <- <- <- <-. now constructor.
  - rewrite H in R. discriminate.
  - destruct (complete_exact schar (cstr b) r) as (a2 & w2 & r2 & E & C2); auto.
    { destruct N as (_ & _ & L & _). pose proof (cstr_length b). lia. }
    destruct (read_part schar _ _ _ N NL NO) as (a & r' & x & _ & _ & _ & R' & Cm). rewrite R' in R. rewrite E in Cm.
    injection Cm as Cm <- <-. injection R as <- <- <- <-. rewrite <- Cm. now apply po_part with r.
Qed.

Lemma outside_iff schar input : looks_outside input <-> read_piece schar input = UB BufferUnderread.
Proof.
  split.
  - intros (b & r & N & NL & C). eapply read_bad; eauto.
  - intros R. assert (NE : input <> []) by (intros ->; discriminate).
    destruct (read_piece_cases schar input NE) as (b & r & N & [(t' & _ & _ & _ & _ & H)|[(NL & C & _)|(_ & _ & a & r' & w & _ & _ & _ & H)]]);
      try (rewrite H in R; discriminate). now exists b, r.
Qed.

Lemma piece_total schar input : input <> [] ->
  looks_outside input \/ exists t nl w rest, piece_of schar input t nl w rest /\ length rest < length input.
Proof.
  intros NE. destruct (read_piece_cases schar input NE) as (b & r & N & [(t' & _ & _ & _ & _ & H)|[(NL & C & _)|(_ & _ & a & r' & w & _ & _ & _ & H)]]).
  - right. exists t', true, false, r. split; [now apply piece_iff | exact (read_piece_shrinks _ _ _ H)].
  - left. now exists b, r.
  - right. exists (cstr b ++ a), false, w, r'. split; [now apply piece_iff | exact (read_piece_shrinks _ _ _ H)].
Qed.

(** ** Streams *)

Definition ending (e : option stop) : prog unit := match e with None => Ret tt | Some w => Stop w end.

Lemma protected_iff t : is_protected t = true <-> t = bs "." \/ t = bs "..".
Proof. unfold is_protected. rewrite orb_true_iff, !str_eqb_eq. tauto. Qed.

Lemma run_filters_some pf fs : forall t, run_filters pf fs (Some t) <> Ok None.
Proof.
  induction fs as [|f fs IH]; intros t; simpl; [discriminate|]. unfold filter_run.
  destruct (f_cleaner f); try discriminate; match goal with |- context [bind ?x _] => destruct x; simpl; try discriminate; apply IH end.
Qed.

Lemma sequence_never_none pf s t : sequence_run_filters pf s (Some t) <> Ok None.
Proof. destruct s as [s|]; simpl; [apply run_filters_some|discriminate]. Qed.

Lemma cleaning_total o t : o_sequence_to_use o <> None ->
  (exists r, cleans_to o t r) \/ (exists w, cleaning_ends o t w).
Proof.
  intros S. unfold cleans_to, cleaning_ends.
  destruct (is_protected t) eqn:P.
  { apply protected_iff in P. left. exists t. auto. }
  assert (N : t <> bs "." /\ t <> bs "..") by (split; intros X; assert (is_protected t = true) by (apply protected_iff; auto); congruence).
  destruct N as [N1 N2].
  destruct (sequence_run_filters (o_platform o) (o_sequence_to_use o) (Some t)) as [[r|]|why|code] eqn:E.
  - left. exists r. right. auto.
  - exfalso. now apply sequence_never_none in E.
  - right. exists (StopUB why). auto.
  - right. exists (StopExit code). auto.
Qed.

Lemma remarked_total o t : exists c, remarked o t c.
Proof.
  destruct (is_protected t) eqn:P.
  - exists []. constructor. now apply protected_iff.
  - exists (map heard (remarks o t)). constructor; intros X; assert (is_protected t = true) by (apply protected_iff; auto); congruence.
Qed.

Lemma stream_total o : o_sequence_to_use o <> None -> forall n contents, length contents < n -> exists tr e, stream_read o contents tr e.
Proof.
  intros S. induction n as [|n IH]; intros contents L; [lia|].
  destruct contents as [|c cs]; [exists [], None; constructor|]. set (input := c :: cs) in *.
  destruct (piece_total (p_schar (o_platform o)) input) as [B|(t & nl & w & rest & P & Sh)]; [discriminate| |].
  - exists [], (Some (StopUB BufferUnderread)). now constructor.
  - destruct (remarked_total o t) as (c0 & Rm). destruct (cleaning_total o t S) as [(r & C)|(e & C)].
    + destruct (IH rest) as (tr & e & H); [lia|]. exists (warned w ++ c0 ++ wrote r nl ++ tr), e. eapply sr_piece; eauto.
    + exists (warned w ++ c0), (Some e). eapply sr_ends; eauto.
Qed.

Lemma trace_call {A} c (k : answer c -> prog A) r tr q : trace_of (k r) tr q -> trace_of (Call c k) (Ev c r :: tr) q.
Proof. intros T. unfold trace_of in *. simpl. right. exists tt, r, tt, tr. repeat split; auto. Qed.

Lemma trace_here {A} (p : prog A) : trace_of p [] p.
Proof. apply runs_here. Qed.

Lemma trace_told {A} l (p : prog A) tr q : trace_of p tr q -> trace_of (told l p) (map heard l ++ tr) q.
Proof.
  intros T. induction l as [|[out text] l IH]; [exact T|]. cbn [told map app heard]. apply (trace_call (Print out text) (fun _ => _) tt). exact IH.
Qed.

(** Cleaning a text says what it has to say, and goes on with the result. *)
Lemma remarked_run o t c (f : option str -> prog unit) tr q : o_sequence_to_use o <> None -> remarked o t c ->
  trace_of (pbind (lift (sequence_run_filters (o_platform o) (o_sequence_to_use o) (if is_protected t then None else Some t))) f) tr q ->
  trace_of (pbind (talking (sequence_run_says (o_platform o) (o_sequence_to_use o) (if is_protected t then None else Some t))) f) (c ++ tr) q.
Proof.
  intros S R T. rewrite talking_sequence, told_bind. destruct R as [D|N1 N2].
  - apply protected_iff in D. rewrite D in *. destruct (o_sequence_to_use o) as [s|]; [exact T|congruence].
  - assert (is_protected t = false) as D by (destruct (is_protected t) eqn:D; auto; apply protected_iff in D; tauto).
    rewrite D in *. now apply trace_told.
Qed.

Lemma stream_trace o input tr e : o_sequence_to_use o <> None -> stream_read o input tr e -> forall n, length input < n ->
  trace_of (inline_loop n o input) tr (ending e).
Proof.
  intros Hs.
  assert (Wn : forall w tr (p q : prog unit), trace_of p tr q ->
     trace_of (let! _ := (if w : bool then print Stderr (bs "detox: warning: stream push back failed" ++ [newline]) else Ret tt) in p) (warned w ++ tr) q).
  { intros w tr0 p q T. destruct w; cbn [print pbind]; [|exact T]. exact (trace_call (Print Stderr _) (fun _ => p) tt _ _ T). }
  induction 1 as [|input t nl w rest c r tr e P Rm C _ IH|input t nl w rest c e P Rm C|input B]; intros n L; (destruct n as [|n]; [lia|]); cbn [inline_loop].
  - apply trace_here.
  - apply piece_iff in P. rewrite P. cbn [lift pbind]. cbn [pc_warning pc_text pc_newline pc_rest]. apply Wn.
    apply read_piece_shrinks in P. cbn [pc_rest] in P.
    assert (T : trace_of (let! _ := print Stdout r in let! _ := (if nl then print Stdout [newline] else Ret tt) in inline_loop n o rest)
                  (wrote r nl ++ tr) (ending e)).
    { cbn [print pbind]. unfold wrote. cbn [app]. apply (trace_call (Print Stdout r) (fun _ => _) tt).
      destruct nl; cbn [print pbind app]; [apply (trace_call (Print Stdout [newline]) (fun _ => _) tt)|]; apply IH; lia. }
    apply remarked_run; auto. destruct C as [(D & -> & S)|(N1 & N2 & C)].
    + apply protected_iff in D. rewrite D. destruct (o_sequence_to_use o) as [s|]; [|contradiction]. exact T.
    + replace (is_protected t) with false; [rewrite C; exact T|].
      destruct (is_protected t) eqn:D; auto. apply protected_iff in D. tauto.
  - apply piece_iff in P. rewrite P. cbn [lift pbind]. cbn [pc_warning pc_text pc_newline pc_rest].
    apply Wn. rewrite <- (app_nil_r c). apply remarked_run; auto. destruct C as (N1 & N2 & C).
    replace (is_protected t) with false.
    2:{ destruct (is_protected t) eqn:D; auto. apply protected_iff in D. tauto. }
    destruct (sequence_run_filters _ _ _); [contradiction| |]; subst; apply trace_here.
  - apply (outside_iff (p_schar (o_platform o))) in B. rewrite B. apply trace_here.
Qed.

(** Programs that only print run in one way. *)
Lemma prints_once (p : prog unit) : only is_print p -> forall tr q tr' q',
  trace_of p tr (ending q) -> trace_of p tr' (ending q') -> tr = tr' /\ q = q'.
Proof.
  assert (O : forall (q : option stop) A c (k : answer c -> prog unit), ending q = Call c k -> A).
  { intros [w|] A c k X; discriminate. }
  induction p as [a|w|c k IH]; intros H tr q tr' q' T T'.
  - destruct T as [(-> & _ & E)|[]], T' as [(-> & _ & E')|[]]. destruct q, q'; try discriminate. auto.
  - destruct T as [(-> & _ & E)|[]], T' as [(-> & _ & E')|[]]. destruct q, q'; try discriminate. injection E as <-. injection E' as <-. auto.
  - unfold trace_of in T, T'. cbn [runs] in T, T'.
    destruct T as [(_ & _ & E)|(s0 & r & [] & t & _ & _ & -> & T)]; [exact (O _ _ _ _ E)|].
    destruct T' as [(_ & _ & E)|(s0' & r' & [] & t' & _ & _ & -> & T')]; [exact (O _ _ _ _ E)|].
    destruct H as [Hc Hk]. destruct c; try (now elim Hc). destruct r, r'.
    destruct (IH tt (Hk tt) _ _ _ _ T T') as [-> ->]. auto.
Qed.

Lemma inline_loop_prints o : forall fuel input, only is_print (inline_loop fuel o input).
Proof.
  induction fuel as [|fuel IH]; intros input; [exact I|]. cbn [inline_loop].
  apply only_bind; [apply only_lift|]. intros [p|]; [|exact I].
  apply only_bind; [destruct (pc_warning p); simpl; auto|]. intros _.
  apply only_bind; [apply only_talking, Forall_forall; simpl; auto|]. intros cleaned.
  apply only_bind; [simpl; auto|]. intros _.
  apply only_bind; [destruct (pc_newline p); simpl; auto|]. intros _. apply IH.
Qed.

Lemma stream_iff o n input tr e : o_sequence_to_use o <> None -> length input < n ->
  trace_of (inline_loop n o input) tr (ending e) <-> stream_read o input tr e.
Proof.
  intros S L. split; [|intros H; now apply stream_trace].
  intros T. destruct (stream_total o S n input L) as (tr' & e' & H).
  destruct (prints_once _ (inline_loop_prints o n input) _ _ _ _ T (stream_trace _ _ _ _ S H n L)) as [-> ->]. exact H.
Qed.

Lemma stream_unique o input tr e tr' e' : o_sequence_to_use o <> None -> stream_read o input tr e -> stream_read o input tr' e' -> tr = tr' /\ e = e'.
Proof.
  intros Hs H H'. apply stream_trace with (n := S (length input)) in H, H'; auto.
  exact (prints_once _ (inline_loop_prints o _ input) _ _ _ _ H H').
Qed.

(** ** Files and arguments *)

Lemma over_call c (k : answer c -> prog unit) tr e :
  trace_of (Call c k) tr (ending e) <-> exists r t, tr = Ev c r :: t /\ trace_of (k r) t (ending e).
Proof.
  unfold trace_of. cbn [runs]. split.
  - intros [(_ & _ & E)|(s0 & r & [] & t & _ & _ & -> & R)]; [destruct e; discriminate|]. eauto.
  - intros (r & t & -> & R). right. exists tt, r, tt, t. repeat split; auto.
Qed.

Lemma over_ret tr e : trace_of (Ret tt) tr (ending e) <-> tr = [] /\ e = None.
Proof.
  unfold trace_of. simpl. split.
  - intros [(-> & _ & E)|[]]. destruct e; [discriminate|auto].
  - intros (-> & ->). auto.
Qed.

Lemma over_print where_ text tr e : trace_of (print where_ text) tr (ending e) <-> tr = [Ev (Print where_ text) tt] /\ e = None.
Proof.
  unfold print. rewrite over_call. split.
  - intros ([] & t & -> & T). apply over_ret in T. destruct T as [-> ->]. auto.
  - intros [-> ->]. exists tt, []. split; auto. now apply over_ret.
Qed.

Lemma stop_under {A B} (p : prog A) (f : A -> prog B) w : forall tr, trace_of p tr (Stop w) -> trace_of (pbind p f) tr (Stop w).
Proof.
  unfold trace_of. induction p as [a|w'|c k IH]; intros tr; cbn [runs pbind].
  - intros [(_ & _ & E)|[]]. discriminate.
  - intros [(-> & _ & E)|[]]. injection E as ->. auto.
  - intros [(_ & _ & E)|(s0 & r & [] & t & H1 & H2 & -> & R)]; [discriminate|]. right. exists s0, r, tt, t. repeat split; auto.
Qed.

Lemma stop_bind {A} (p : prog unit) (f : unit -> prog A) tr w :
  trace_of (pbind p f) tr (Stop w) <->
  trace_of p tr (Stop w) \/ exists t1 t2, tr = t1 ++ t2 /\ trace_of p t1 (Ret tt) /\ trace_of (f tt) t2 (Stop w).
Proof.
  unfold trace_of. split.
  - intros R. apply runs_bind_inv in R. destruct R as [(q & R & E)|(t1 & t2 & [] & [] & -> & R1 & R2)].
    + destruct q as [[]|w'|c k]; try discriminate.
      * right. exists tr, []. rewrite app_nil_r. cbn [pbind] in E. splits; auto. rewrite <- E. apply runs_here.
      * left. cbn [pbind] in E. injection E as <-. exact R.
    + right. exists t1, t2. auto.
  - intros [R|(t1 & t2 & -> & R1 & R2)].
    + now apply stop_under.
    + eapply runs_app; eauto.
Qed.

Lemma over_bind (p : prog unit) (f : unit -> prog unit) tr e :
  trace_of (pbind p f) tr (ending e) <->
  (exists w, e = Some w /\ trace_of p tr (ending e)) \/
  exists t1 t2, tr = t1 ++ t2 /\ trace_of p t1 (ending None) /\ trace_of (f tt) t2 (ending e).
Proof.
  destruct e as [w|]; cbn [ending].
  - rewrite stop_bind. split; [intros [T|T]; eauto|]. intros [(w' & [= <-] & T)|T]; auto.
  - rewrite done_bind. split.
    + intros (t1 & t2 & [] & H). right. eauto.
    + intros [(w & E & _)|(t1 & t2 & H)]; [discriminate|]. exists t1, t2, tt. auto.
Qed.

Lemma inline_iff o f tr e : o_sequence_to_use o <> None ->
  trace_of (parse_inline f o) tr (ending e) <-> inline_read o f tr e.
Proof.
  intros S. unfold parse_inline. cbn [sys pbind]. rewrite over_call. split.
  - intros ([contents|m] & t & -> & T).
    + constructor. apply (stream_iff o (Datatypes.S (length contents))); auto.
    + destruct f as [f|]; [apply over_print in T|apply over_ret in T]; destruct T as [-> ->]; constructor.
  - intros [f' contents t e' H|f' m|m].
    + exists (inl contents), t. split; auto. apply stream_iff; auto.
    + exists (inr m), [said_of f' m]. split; auto. now apply over_print.
    + exists (inr m), []. split; auto. now apply over_ret.
Qed.

Lemma argument_inv o f r t e : inline_argument o f (Ev (Lstat f) r :: t) e ->
  match r with
  | inr m => t = [said_of f m] /\ e = None
  | inl st => st_kind st = SDir /\ t = [said_of f (bs "is a directory")] /\ e = None \/ st_kind st <> SDir /\ inline_read o (Some f) t e
  end.
Proof.
  set (lstat_of := fun e => match e with Ev (Lstat _) r => Some r | _ => None end).
  intros H. remember (Ev (Lstat f) r :: t) as l eqn:E.
  destruct H as [m|st K|st tr e K R]; pose proof (f_equal (fun l => match l with x :: _ => lstat_of x | [] => None end) E) as E1;
    pose proof (f_equal (@tl event) E) as E2; cbn [tl lstat_of] in E1, E2; injection E1 as <-; subst t; auto.
Qed.

Lemma inline_arguments_iff o : o_sequence_to_use o <> None -> forall fs tr e,
  trace_of (inline_arguments o fs) tr (ending e) <-> inline_work o fs tr e.
Proof.
  intros S. induction fs as [|f fs IH]; intros tr e; cbn [inline_arguments].
  { rewrite over_ret. split; [intros [-> ->]; constructor|]. intros H. inversion H. auto. }
  cbn [sys pbind]. rewrite over_call.
  assert (A : forall r t e', trace_of (match r with
      | inl st => if isdir st then print Stderr (f ++ bs ": is a directory" ++ [eol]) else parse_inline (Some f) o
      | inr message => print Stderr (f ++ bs ": " ++ message ++ [eol]) end) t (ending e') <->
     inline_argument o f (Ev (Lstat f) r :: t) e').
  { intros [st|m] t e'.
    - destruct (isdir st) eqn:D; [apply kind_dir in D|apply kind_not_dir in D].
      + rewrite over_print. split; [intros [-> ->]; now constructor|].
        intros H. apply argument_inv in H. destruct H as [(_ & -> & ->)|[N _]]; [auto|contradiction].
      + rewrite inline_iff by auto. split; [intros H; now constructor|].
        intros H. apply argument_inv in H. destruct H as [[N _]|[_ H]]; [contradiction|auto].
    - rewrite over_print. split; [intros [-> ->]; now constructor|]. intros H. exact (argument_inv _ _ _ _ _ H). }
  split.
  - intros (r & t & -> & T). apply over_bind in T. destruct T as [(w & -> & T)|(t1 & t2 & -> & T1 & T2)].
    + apply A in T. now constructor.
    + apply A in T1. apply IH in T2. exact (iw_next o f fs _ _ e T1 T2).
  - intros H. inversion H as [|f' fs' t1 t2 e' H1 H2|f' fs' t w H1]; subst.
    + assert (X : exists r t, t1 = Ev (Lstat f) r :: t) by (destruct H1; eauto). destruct X as (r & t & ->).
      exists r, (t ++ t2). split; auto. apply over_bind. right. exists t, t2. splits; auto; [now apply A|now apply IH].
    + assert (X : exists r t, tr = Ev (Lstat f) r :: t) by (destruct H1; eauto). destruct X as (r & t & ->).
      exists r, t. split; auto. apply over_bind. left. exists w. split; auto. now apply A.
Qed.

(** ** The whole program *)

Lemma stop_told {A} l (p : prog A) w : forall tr, trace_of (told l p) tr (Stop w) <-> exists t, tr = map heard l ++ t /\ trace_of p t (Stop w).
Proof.
  induction l as [|[out text] l IH]; intros tr; cbn [told map app].
  - split; [eauto|]. now intros (? & -> & ?).
  - unfold trace_of in *. cbn [runs]. split.
    + intros [(_ & _ & E)|(s0 & [] & [] & t2 & _ & _ & -> & R)]; [discriminate|]. destruct s0. apply IH in R. destruct R as (t & -> & R). eauto.
    + intros (t & -> & T). right. exists tt, tt, tt, (map heard l ++ t). repeat split; auto. apply IH. eauto.
Qed.

Lemma inline_program s argv :
  (exists w, forall fuel, ends (main fuel s argv) w) \/
  (exists ws fs o c said, started s argv ws fs o c /\
     prelude s ws c said /\
     (o_is_inline_mode o = true -> forall fuel tr,
       (forall n, trace_of (main fuel s argv) tr (Ret n) <->
          n = EXIT_SUCCESS /\ exists tr2, tr = map heard said ++ tr2 /\ inline_session o fs tr2 None) /\
       (forall w, trace_of (main fuel s argv) tr (Stop w) <->
          exists tr2, tr = map heard said ++ tr2 /\ inline_session o fs tr2 (Some w)))).
Proof.
  destruct (main_cases_all s argv) as [E|(ws & fs & o & c & said & St & Cf & E)]; [left; exact E|].
  right. exists ws, fs, o, c, said. splits; auto. intros Im fuel tr.
  pose proof (started_sequence _ _ _ _ _ _ St) as Sq. rewrite E.
  assert (W : exists p, work fuel o fs (o_files_to_ignore o) = pbind p (fun _ => Ret EXIT_SUCCESS) /\
                forall t e, trace_of p t (ending e) <-> inline_session o fs t e).
  { unfold work. rewrite Im. cbn [negb]. destruct fs as [|f fs].
    - exists (parse_inline None o). split; auto. intros t e. now apply inline_iff.
    - exists (inline_arguments o (f :: fs)). split; auto. intros t e. now apply inline_arguments_iff. }
  destruct W as (p & -> & W). split; intros x.
  - rewrite done_told. split.
    + intros (t2 & -> & T). apply done_bind in T. destruct T as (t1 & t3 & [] & -> & T1 & T3). apply done_ret in T3. destruct T3 as [-> ->].
      rewrite app_nil_r. split; auto. exists t1. split; auto. now apply W.
    + intros (-> & t2 & -> & T). exists t2. split; auto. apply done_bind. exists t2, [], tt. rewrite app_nil_r. splits; auto.
      * now apply (W t2 None).
      * now apply done_ret.
  - rewrite stop_told. split; intros (t2 & -> & T); exists t2; (split; [reflexivity|]).
    + apply stop_bind in T. destruct T as [T|(t1 & t3 & -> & _ & T)]; [now apply W|]. destruct T as [(_ & _ & X)|[]]. discriminate.
    + apply stop_bind. left. now apply (W t2 (Some x)).
Qed.
