(** * Consequences for directories, output and early ends *)

From Verif Require Import Warnings WarningsProofs Base BaseFacts CleanSpec Filter SequenceProofs Filelist FilelistProofs Prog ProgFacts File FS FileSpec
  FileProofs FileProofs2 WalkProofs Startup Main MainSpec MainProofs RunSpec RunProofs.

Local Open Scope nat_scope.

(** ** Open directories *)

Lemma still_open_app a b stack : still_open (a ++ b) stack = still_open b (still_open a stack).
Proof.
  revert stack. induction a as [|e a IH]; intros stack; [reflexivity|]. destruct e as [c r].
  destruct c; cbn [app still_open]; auto. destruct r; cbn; auto.
Qed.

Definition now_open (tr : list event) : list (str * N) := still_open (rev tr) [].

Lemma now_open_cons c r tr : now_open (Ev c r :: tr) = still_open [Ev c r] (now_open tr).
Proof. unfold now_open. cbn [rev]. apply still_open_app. Qed.

Definition innermost (c : call) (stack : list (str * N)) : Prop :=
  match c with Readdir h | Closedir h => exists p outer, stack = (p, h) :: outer | _ => True end.

Section handles.
  Variable o : options_t.

  Notation wp := (wp anything alone (fun _ _ => True) (fun tr _ c => innermost c (now_open tr))).

  Definition elsewhere (c : call) : Prop :=
    match c with Opendir _ | Closedir _ | Readdir _ => False | _ => True end.

  Lemma step_elsewhere {A} c (k : answer c -> prog A) Q tr s : elsewhere c ->
    (forall r tr' s', now_open tr' = now_open tr -> wp (k r) Q tr' s') -> wp (Call c k) Q tr s.
  Proof.
    intros E H. apply wp_call; auto; [now destruct c|]. intros s0 r s1 _ _. apply H. rewrite now_open_cons.
    destruct c; cbn in E; try contradiction; reflexivity.
  Qed.

  Lemma file_keeps_open p tr s : wp (parse_file p o) (fun _ tr' _ => now_open tr' = now_open tr) tr s.
  Proof.
    assert (G : only elsewhere (parse_file p o)).
    { unfold parse_file. destruct (split_path p) as [dir base]. apply only_bind; [apply only_talking, Forall_forall; simpl; auto|].
      intros [cl|]; [|exact I]. destruct (str_eqb base cl); [exact I|]. cbv zeta.
      apply only_bind; [apply only_sys; exact I|]. intros [a|m]; [|exact I].
      apply only_bind; [apply only_sys; exact I|]. intros r.
      destruct (match r with inl new => is_other_file a new | inr _ => false end).
      { apply only_bind; [apply only_print; exact I|]. intros; exact I. }
      apply only_bind. { destruct (_ || _)%bool; [apply only_print|]; exact I. }
      intros _. destruct (o_dry_run o); [exact I|]. apply only_bind; [apply only_sys; exact I|].
      intros [m|]; [|exact I]. apply only_bind; [apply only_print; exact I|]. intros; exact I. }
    assert (H : forall A (q : prog A), only elsewhere q -> forall tr' s', now_open tr' = now_open tr ->
      wp q (fun _ tr2 _ => now_open tr2 = now_open tr) tr' s').
    { induction q as [a|w|c k IH]; intros O tr' s' E; simpl in O |- *; auto. destruct O as [O1 O2].
      apply step_elsewhere; auto. intros r tr2 s2 E2. apply IH; auto. congruence. }
    now apply H.
  Qed.

  Lemma walk_keeps_open fuel :
    (forall p l tr s, wp (parse_dir fuel o p l) (fun _ tr' _ => now_open tr' = now_open tr) tr s) /\
    (forall p h st l tr s top outer, now_open tr = (top, h) :: outer ->
       wp (dir_loop fuel o p h st l) (fun _ tr' _ => now_open tr' = now_open tr) tr s).
  Proof.
    induction fuel as [|fuel [IHd IHl]]; [split; intros; simpl; auto|]. split.
    - intros p l tr s. cbn [parse_dir]. apply step_elsewhere; [exact I|]. intros [st|m] tr1 s1 E1; [|now apply wp_ret].
      cbn [pbind]. destruct (negb (isdir st)); [now apply wp_ret|].
      apply wp_call; [exact I | exact I |]. intros s2 [h|em m] s3 _ _.
      + apply wp_bind.
        assert (O : now_open (Ev (Opendir p) (Opened h) :: tr1) = (p, h) :: now_open tr) by (rewrite now_open_cons, E1; reflexivity).
        eapply wp_mono; [|eapply IHl; exact O]. cbv beta. intros l' tr4 s4 _ E4. rewrite O in E4.
        apply wp_call; [exact I | cbn; eauto |]. intros s5 [] s6 _ _. apply wp_ret; [exact I|].
        rewrite now_open_cons, E4. reflexivity.
      + assert (O : now_open (Ev (Opendir p) (NotOpened em m) :: tr1) = now_open tr) by (rewrite now_open_cons, E1; reflexivity).
        apply (step_elsewhere (Print Stderr (bs "unable to parse: " ++ m ++ [Nb 10]))); [exact I|].
        intros [] tr4 s4 E4. cbn [pbind]. destruct em; [simpl; auto|]. apply wp_ret; auto. congruence.
    - intros p h st l tr s top outer O. cbn [dir_loop]. apply wp_call; [exact I | cbn; eauto |]. intros s0 [n|] s1 _ _.
      2:{ apply wp_ret; [exact I|]. apply now_open_cons. }
      cbn [pbind]. set (tr1 := Ev (Readdir h) (Some n) :: tr). assert (O1 : now_open tr1 = now_open tr) by (apply now_open_cons).
      apply wp_bind, wp_lift; auto. intros [[|] l1] _.
      { eapply wp_mono; [|apply IHl with top outer; congruence]. cbv beta. intros; congruence. }
      apply step_elsewhere; [exact I|]. intros r tr2 s2 E2. cbn [pbind]. cbv zeta.
      set (st1 := match r with inl x => x | inr _ => st end).
      apply wp_bind. eapply wp_mono with (Q := fun _ tr' _ => now_open tr' = now_open tr2).
      { intros l2 tr3 s3 _ E3. eapply wp_mono; [|apply IHl with top outer; congruence]. cbv beta. intros; congruence. }
      destruct (isdir st1).
      + apply wp_bind. eapply wp_mono; [|apply file_keeps_open]. cbv beta. intros q tr3 s3 _ E3.
        destruct (o_recurse o); [|now apply wp_ret]. eapply wp_mono; [|apply IHd]. cbv beta. intros; congruence.
      + destruct (isreg st1 || o_special o)%bool; [|now apply wp_ret].
        apply wp_bind. eapply wp_mono; [|apply file_keeps_open]. cbv beta. intros q tr3 s3 _ E3. now apply wp_ret.
  Qed.

  Lemma arguments_keep_open fuel fs : forall l tr s,
    wp (process_arguments fuel o fs l) (fun _ tr' _ => now_open tr' = now_open tr) tr s.
  Proof.
    induction fs as [|f fs IH]; intros l tr s; cbn [process_arguments]; [now apply wp_ret|].
    apply wp_bind. eapply wp_mono with (Q := fun _ tr' _ => now_open tr' = now_open tr).
    { intros l1 tr1 s1 _ E1. eapply wp_mono; [|apply IH]. cbv beta. intros; congruence. }
    unfold process_argument. apply wp_bind. eapply wp_mono with (Q := fun _ tr' _ => now_open tr' = now_open tr).
    2:{ destruct (0 <? o_verbose o)%N; [|now apply wp_ret]. apply step_elsewhere; [exact I|]. intros [] tr1 s1 E1. now apply wp_ret. }
    intros [] tr1 s1 _ E1. apply step_elsewhere; [exact I|]. intros [st|m] tr2 s2 E2.
    2:{ apply (step_elsewhere (Print Stderr (f ++ bs ": " ++ m ++ [Nb 10]))); [exact I|]. intros [] tr3 s3 E3. apply wp_ret; auto. congruence. }
    cbn [pbind]. destruct (isdir st).
    - apply wp_bind. eapply wp_mono; [|apply file_keeps_open]. cbv beta. intros q tr3 s3 _ E3.
      eapply wp_mono; [|apply walk_keeps_open]. cbv beta. intros; congruence.
    - destruct (isreg st || o_special o)%bool; [|apply wp_ret; auto; congruence].
      apply wp_bind. eapply wp_mono; [|apply file_keeps_open]. cbv beta. intros q tr3 s3 _ E3. apply wp_ret; auto. congruence.
  Qed.
End handles.

Lemma prints_open tr stack : Forall (fun e => match e with Ev c _ => is_print c end) tr -> still_open tr stack = stack.
Proof.
  induction 1 as [|[c r] tr H _ IH]; [reflexivity|]. destruct c; cbn in H; try contradiction. exact IH.
Qed.

Lemma reads_open tr stack : Forall (fun e => match e with Ev c _ => reads_or_prints c end) tr -> still_open tr stack = stack.
Proof.
  induction 1 as [|[c r] tr H _ IH]; [reflexivity|]. destruct c; cbn in H; try contradiction; exact IH.
Qed.

Lemma program_innermost fuel sy argv tr c k : trace_of (main fuel sy argv) tr (Call c k) -> innermost c (still_open tr []).
Proof.
  intros R. apply runs_work in R. destruct R as [(_ & X)|(ws & fs & o & c0 & said & tr2 & s1 & St & -> & _ & R)].
  - specialize (X _ _ eq_refl). now destruct c.
  - destruct (o_is_inline_mode o) eqn:Im.
    + apply runs_trace in R. destruct (only_trace _ _ _ _ (work_inline fuel o fs (o_files_to_ignore o) Im) R) as [_ [X _]]. now destruct c.
    + destruct (work_files _ _ _ _ _ _ _ _ _ _ Im R) as (q & Rq & [(_ & X)|X]); [discriminate|].
      destruct q as [a|w|c1 k1]; try discriminate. cbn [pbind] in X.
      pose proof (f_equal (fun p => match p with Call c _ => c | _ => Print Stdout [] end) X) as X1. cbn in X1. subst c1.
      rewrite still_open_app, (prints_open (map heard said)) by apply heard_prints.
      destruct s1. pose proof (runs_pending _ _ _ _ _ _ _ _ _ _ _ (arguments_keep_open o fuel fs (o_files_to_ignore o) [] tt) Rq) as P.
      cbv beta in P. unfold now_open in P. rewrite rev_involutive in P. exact P.
Qed.

Lemma program_closes fuel sy argv tr n : trace_of (main fuel sy argv) tr (Ret n) -> still_open tr [] = [].
Proof.
  intros R. apply runs_work in R. destruct R as [(X & _)|(ws & fs & o & c0 & said & tr2 & s1 & St & -> & _ & R)].
  - now apply prints_open.
  - rewrite still_open_app, (prints_open (map heard said)) by apply heard_prints.
    destruct (o_is_inline_mode o) eqn:Im.
    + apply runs_trace in R. destruct (only_trace _ _ _ _ (work_inline fuel o fs (o_files_to_ignore o) Im) R) as [X _]. now apply reads_open.
    + destruct (work_files _ _ _ _ _ _ _ _ _ _ Im R) as (q & Rq & H).
      assert (exists a, q = Ret a) as (a & ->) by (destruct H as [(H & _)|H]; [exact H|destruct q; try discriminate; eauto]).
      destruct s1. pose proof (runs_post _ _ _ _ _ _ _ _ _ _ (arguments_keep_open o fuel fs (o_files_to_ignore o) [] tt) Rq) as P.
      cbv beta in P. unfold now_open in P. rewrite rev_involutive in P. exact P.
Qed.

(** ** What is asked and said *)

Lemma file_asks o files p : only (asked o files) (parse_file p o).
Proof.
  unfold parse_file. destruct (split_path p) as [dir base] eqn:Sp. apply split_path_spec in Sp.
  rewrite talking_sequence, told_bind. apply only_told.
  { apply Forall_forall. intros [out text] X. cbn [fst snd].
    assert (out = Stderr) as ->.
    { pose proof (sequence_stderr (o_platform o) (o_sequence_to_use o) (if is_protected base then None else Some base)) as St.
      unfold on_stderr in St. rewrite Forall_forall in St. exact (St _ X). }
    left. exists base. unfold remarks. destruct (is_protected base); [|exact X].
    unfold sequence_run_says in *. destruct (o_sequence_to_use o); [destruct X|exact X]. }
  destruct (sequence_run_filters (o_platform o) (o_sequence_to_use o) (if is_protected base then None else Some base)) as [cl|u|n] eqn:E;
    [|exact I|exact I]. cbn [lift pbind].
  destruct cl as [cl|]; [|exact I]. destruct (is_protected base) eqn:P.
  { unfold sequence_run_filters in E. destruct (o_sequence_to_use o); discriminate. }
  destruct (str_eqb base cl) eqn:B; [exact I|]. apply str_eqb_neq in B.
  assert (PR : proper_rename o p (dir ++ cl)).
  { exists dir, base, cl. splits; auto.
    - intros ->. apply sequence_run_empty in E. now apply B.
    - intros ->. discriminate.
    - intros ->. discriminate. }
  cbv zeta. apply only_bind; [apply only_sys; exact I|]. intros [a|m]; [|exact I].
  apply only_bind; [apply only_sys; exact I|]. intros r.
  destruct (match r with inl new => is_other_file a new | inr _ => false end).
  { apply only_bind; [apply only_print|intros; exact I]. right. left. exists p, (dir ++ cl), (bs "file already exists"). auto. }
  apply only_bind.
  { destruct (0 <? o_verbose o)%N eqn:V; cbn [orb].
    - apply only_print. right. split; [left; now apply N.ltb_lt|]. exists p, (dir ++ cl). auto.
    - destruct (o_dry_run o) eqn:D; [|exact I]. apply only_print. right. split; [auto|]. exists p, (dir ++ cl). auto. }
  intros _. destruct (o_dry_run o) eqn:D; [exact I|]. apply only_bind; [apply only_sys; split; auto|].
  intros [m|]; [|exact I]. apply only_bind; [apply only_print|intros; exact I]. right. left. exists p, (dir ++ cl), m. auto.
Qed.

Lemma walk_asks o files fuel :
  (forall p l, only (asked o files) (parse_dir fuel o p l)) /\
  (forall p h st l, only (asked o files) (dir_loop fuel o p h st l)).
Proof.
  induction fuel as [|fuel [IHd IHl]]; [split; intros; exact I|]. split.
  - intros p l. cbn [parse_dir]. apply only_bind; [apply only_sys; exact I|]. intros [st|m]; [|exact I].
    destruct (negb (isdir st)); [exact I|]. apply only_bind; [apply only_sys; exact I|]. intros [h|em m].
    + apply only_bind; [apply IHl|]. intros l'. apply only_bind; [apply only_sys; exact I|]. intros; exact I.
    + apply only_bind; [apply only_print; right; right; left; eauto|]. intros _. now destruct em.
  - intros p h st l. cbn [dir_loop]. apply only_bind; [apply only_sys; exact I|]. intros [n|]; [|exact I].
    apply only_bind; [apply only_lift|]. intros [[|] l1]; [apply IHl|]. cbv zeta.
    apply only_bind; [apply only_sys; exact I|]. intros r. apply only_bind; [|intros; apply IHl].
    destruct (isdir _).
    + apply only_bind; [apply file_asks|]. intros q. destruct (o_recurse o); [apply IHd|exact I].
    + destruct (_ || _)%bool; [|exact I]. apply only_bind; [apply file_asks|]. intros; exact I.
Qed.

Lemma arguments_ask o all fuel files : forall l, incl files all -> only (asked o all) (process_arguments fuel o files l).
Proof.
  induction files as [|f fs IH]; intros l L; cbn [process_arguments]; [exact I|].
  apply only_bind; [|intros; apply IH; intros x X; apply L; now right].
  assert (F : In f all) by (apply L; now left).
  unfold process_argument. apply only_bind.
  { destruct (0 <? o_verbose o)%N eqn:V; [|exact I]. apply only_print. left. split; [now apply N.ltb_lt|]. eauto. }
  intros _. apply only_bind; [apply only_sys; exact I|]. intros [st|m].
  - destruct (isdir st).
    + apply only_bind; [apply file_asks|]. intros q. apply walk_asks.
    + destruct (_ || _)%bool; [|exact I]. apply only_bind; [apply file_asks|]. intros; exact I.
  - apply only_bind; [apply only_print; right; right; right; eauto|]. intros; exact I.
Qed.

Lemma work_asks fuel o files l tr p' : trace_of (process_arguments fuel o files l) tr p' ->
  Forall (fun e => match e with Ev c _ => asked o files c end) tr /\ forall c k, p' = Call c k -> asked o files c.
Proof.
  intros T. destruct (only_trace _ _ _ _ (arguments_ask o files fuel files l (incl_refl _)) T) as [F O].
  split; auto. intros c k ->. apply O.
Qed.

Lemma work_silent fuel o files l tr p' text : o_verbose o = 0%N -> o_dry_run o = false ->
  trace_of (process_arguments fuel o files l) tr p' -> ~ In (Ev (Print Stdout text) tt) tr.
Proof.
  intros V D T X. destruct (work_asks _ _ _ _ _ _ T) as [F _]. rewrite Forall_forall in F. specialize (F _ X).
  destruct F as [(F & _)|([F|F] & _)]; [lia | lia | congruence].
Qed.
