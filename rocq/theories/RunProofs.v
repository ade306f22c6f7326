(** * Complete runs have the shape described in RunSpec.v, and every such shape is a run *)

From Verif Require Import Base BaseFacts CleanSpec Filter SequenceProofs Filelist FilelistProofs Prog ProgFacts Warnings WarningsProofs File FS FileSpec FileProofs
  FileProofs2 WalkProofs MainProofs RunSpec.

Local Open Scope nat_scope.

(** ** Complete traces *)

Lemma done_ret {A} (a b : A) tr : trace_of (Ret a) tr (Ret b) <-> tr = [] /\ b = a.
Proof.
  unfold trace_of. simpl. split.
  - intros [(-> & _ & E)|[]]. injection E as ->. auto.
  - intros (-> & ->). auto.
Qed.

Lemma done_stop {A} w (b : A) tr : ~ trace_of (Stop w) tr (Ret b).
Proof. unfold trace_of. simpl. intros [(_ & _ & E)|[]]. discriminate. Qed.

Lemma done_call {A} c (k : answer c -> prog A) tr b :
  trace_of (Call c k) tr (Ret b) <-> exists r t, tr = Ev c r :: t /\ trace_of (k r) t (Ret b).
Proof.
  unfold trace_of. simpl. split.
  - intros [(_ & _ & E)|(s0 & r & [] & t & _ & _ & -> & R)]; [discriminate|]. eauto.
  - intros (r & t & -> & R). right. exists tt, r, tt, t. repeat split; auto.
Qed.

Lemma done_bind {A B} (p : prog A) (f : A -> prog B) tr b :
  trace_of (pbind p f) tr (Ret b) <-> exists t1 t2 a, tr = t1 ++ t2 /\ trace_of p t1 (Ret a) /\ trace_of (f a) t2 (Ret b).
Proof.
  unfold trace_of. split.
  - intros R. apply runs_bind_inv in R. destruct R as [(q & R & E)|(t1 & t2 & a & [] & -> & R1 & R2)].
    + destruct q as [a|w|c k]; try discriminate. exists tr, [], a. rewrite app_nil_r. cbn [pbind] in E.
      splits; auto. rewrite <- E. apply runs_here.
    + exists t1, t2, a. auto.
  - intros (t1 & t2 & a & -> & R1 & R2). eapply runs_app; eauto.
Qed.

Lemma done_lift {A} (r : res A) tr b : trace_of (lift r) tr (Ret b) <-> tr = [] /\ r = Ok b.
Proof.
  destruct r as [a|w|n]; simpl lift.
  - rewrite done_ret. split; intros [-> E]; split; congruence.
  - split; [intros H; now apply done_stop in H | intros [_ H]; discriminate].
  - split; [intros H; now apply done_stop in H | intros [_ H]; discriminate].
Qed.

Lemma done_sys {A} c (k : answer c -> prog A) tr b :
  trace_of (pbind (sys c) k) tr (Ret b) <-> exists r t, tr = Ev c r :: t /\ trace_of (k r) t (Ret b).
Proof. cbn [sys pbind]. apply done_call. Qed.

Lemma done_print {A} out text (k : unit -> prog A) tr b :
  trace_of (pbind (print out text) k) tr (Ret b) <-> exists t, tr = Ev (Print out text) tt :: t /\ trace_of (k tt) t (Ret b).
Proof.
  unfold print. cbn [pbind]. rewrite done_call. split.
  - intros ([] & t & -> & R). eauto.
  - intros (t & -> & R). exists tt. eauto.
Qed.

(** ** One file *)

Lemma is_other_iff a b : is_other_file a b = true <-> in_the_way a b.
Proof.
  unfold is_other_file, in_the_way. rewrite !orb_true_iff, !negb_true_iff, !N.eqb_neq, N.ltb_lt.
  split; intros [[H|H]|H] || intros [H|[H|H]]; auto.
Qed.

Lemma way_iff a r :
  match r with inl new => is_other_file a new | inr _ => false end = false <-> way_is_free a r.
Proof.
  destruct r as [b|m]; simpl; [|tauto]. rewrite <- is_other_iff. destruct (is_other_file a b); intuition congruence.
Qed.

Lemma done_told {A} l (p : prog A) tr b :
  trace_of (told l p) tr (Ret b) <-> exists t, tr = map heard l ++ t /\ trace_of p t (Ret b).
Proof.
  revert tr. induction l as [|[out text] l IH]; intros tr; cbn [told map app].
  - split; [eauto|]. now intros (t & -> & T).
  - rewrite done_call. split.
    + intros ([] & t & -> & T). apply IH in T. destruct T as (t2 & -> & T). eauto.
    + intros (t & -> & T). exists tt. eexists. split; [reflexivity|]. apply IH. eauto.
Qed.

(** A name is cleaned: what is said, and the result. *)
Lemma done_talking {A} (m : talk A) tr b : trace_of (talking m) tr (Ret b) <-> tr = map heard (fst m) /\ snd m = Ok b.
Proof.
  unfold talking. rewrite done_told. setoid_rewrite done_lift. split.
  - intros (t & -> & -> & E). now rewrite app_nil_r.
  - intros (-> & E). exists []. now rewrite app_nil_r.
Qed.

Lemma commented_of o p dir base : o_sequence_to_use o <> None -> last_component p dir base ->
  commented o p (map heard (fst (sequence_run_says (o_platform o) (o_sequence_to_use o) (if is_protected base then None else Some base)))).
Proof.
  intros HS L. destruct (is_protected base) eqn:P.
  - unfold sequence_run_says. destruct (o_sequence_to_use o); [|contradiction]. apply commented_dots with dir base; auto. now apply is_protected_iff.
  - apply commented_name with dir; auto; intros ->; discriminate.
Qed.

Lemma commented_fun o p dir base w : o_sequence_to_use o <> None -> last_component p dir base -> commented o p w ->
  w = map heard (fst (sequence_run_says (o_platform o) (o_sequence_to_use o) (if is_protected base then None else Some base))).
Proof.
  intros HS L [dir' base' L' B|dir' base' L' B1 B2]; destruct (last_component_fun _ _ _ _ _ L' L) as [-> ->].
  - apply is_protected_iff in B. rewrite B. unfold sequence_run_says. now destruct (o_sequence_to_use o).
  - destruct (is_protected base) eqn:P; [|reflexivity]. apply is_protected_iff in P. tauto.
Qed.

Lemma file_forward o p tr q : trace_of (parse_file p o) tr (Ret q) -> file_done o p tr q.
Proof.
  intros T. unfold parse_file in T. destruct (split_path p) as [dir base] eqn:Sp. apply split_path_spec in Sp.
  apply done_bind in T. destruct T as (t1 & t2 & cl & -> & T1 & T2). apply done_talking in T1. destruct T1 as [-> E].
  rewrite sequence_result in E.
  assert (HS : o_sequence_to_use o <> None) by (intros X; rewrite X in E; discriminate).
  apply file_done_intro; [now apply commented_of with dir|]. clear HS.
  destruct (is_protected base) eqn:P.
  { assert (cl = None) as -> by (unfold sequence_run_filters in E; destruct (o_sequence_to_use o); congruence).
    apply done_ret in T2. destruct T2 as [-> ->]. apply done_clean. exists dir, base. apply is_protected_iff in P. tauto. }
  destruct cl as [cl|].
  2:{ unfold sequence_run_filters in E. destruct (o_sequence_to_use o); [|discriminate].
      apply run_filters_some in E. now destruct E. }
  destruct (str_eqb base cl) eqn:B.
  { apply str_eqb_eq in B. subst cl. apply done_ret in T2. destruct T2 as [-> ->]. apply done_clean. exists dir, base. tauto. }
  apply str_eqb_neq in B.
  assert (PR : proper_rename o p (dir ++ cl)).
  { exists dir, base, cl. splits; auto.
    - intros ->. apply sequence_run_empty in E. now apply B.
    - intros ->. discriminate.
    - intros ->. discriminate. }
  apply done_sys in T2. destruct T2 as ([a|m] & t & -> & T).
  2:{ apply done_ret in T. destruct T as [-> ->]. now apply done_gone with (dir ++ cl). }
  apply done_sys in T. destruct T as (r & t2 & -> & T).
  destruct (match r with inl new => is_other_file a new | inr _ => false end) eqn:W.
  { apply done_print in T. destruct T as (t3 & -> & T). apply done_ret in T. destruct T as [-> ->].
    destruct r as [b|m]; [|discriminate]. apply is_other_iff in W. now apply done_refused. }
  apply way_iff in W.
  assert (T' : exists t3, t2 = (if ((0 <? o_verbose o)%N || o_dry_run o)%bool then [announced p (dir ++ cl)] else []) ++ t3 /\
     trace_of (if o_dry_run o then Ret p
          else
            let! err := sys (Rename p (dir ++ cl)) in
            match err with
            | Some message => let! _ := print Stderr (refusal p (dir ++ cl) message) in Ret p
            | None => Ret (dir ++ cl)
            end) t3 (Ret q)).
  { destruct ((0 <? o_verbose o)%N || o_dry_run o)%bool.
    - apply done_print in T. destruct T as (t3 & -> & T). exists t3. auto.
    - exists t2. auto. }
  clear T. destruct T' as (t3 & -> & T). destruct (o_dry_run o) eqn:D.
  - apply done_ret in T. destruct T as [-> ->]. rewrite orb_true_r. now apply done_announced.
  - rewrite orb_false_r. apply done_sys in T. destruct T as ([m|] & t4 & -> & T).
    + apply done_print in T. destruct T as (t5 & -> & T). apply done_ret in T. destruct T as [-> ->].
      now apply done_failed.
    + apply done_ret in T. destruct T as [-> ->]. now apply done_renamed.
Qed.

Lemma file_backward o p tr q : o_sequence_to_use o <> None -> file_done o p tr q -> trace_of (parse_file p o) tr (Ret q).
Proof.
  intros HS F0. destruct F0 as [w tr q C F].
  assert (NP : forall new, proper_rename o p new -> exists dir base, last_component p dir base /\ is_protected base = false).
  { intros new (dir & base & cl & L & _ & _ & B1 & B2 & _). exists dir, base. split; auto.
    destruct (is_protected base) eqn:P; auto. apply is_protected_iff in P. tauto. }
  assert (PP : forall new t, proper_rename o p new ->
    trace_of (Call (Lstat p) (fun old_stat =>
        match old_stat with
        | inr _ => Ret p
        | inl old =>
          let! new_stat := sys (Lstat new) in
          if match new_stat with inl new => is_other_file old new | inr _ => false end then
            let! _ := print Stderr (refusal p new (bs "file already exists")) in Ret p
          else
            let! _ := (if ((0 <? o_verbose o)%N || o_dry_run o)%bool
                       then print Stdout (announcement p new) else Ret tt) in
            if o_dry_run o then Ret p
            else
              let! err := sys (Rename p new) in
              match err with
              | Some message => let! _ := print Stderr (refusal p new message) in Ret p
              | None => Ret new
              end
        end)) t (Ret q) -> trace_of (parse_file p o) (w ++ t) (Ret q)).
  { intros new t PR T. destruct (NP new PR) as (dir & base & L & P).
    rewrite (parse_file_proper _ _ _ _ _ L PR). apply done_told. exists t. split; auto.
    rewrite (commented_fun _ _ _ _ _ HS L C), P. reflexivity. }
  assert (A : forall new a r tl, proper_rename o p new -> way_is_free a r ->
    trace_of (let! _ := (if ((0 <? o_verbose o)%N || o_dry_run o)%bool
                   then print Stdout (announcement p new) else Ret tt) in
        if o_dry_run o then Ret p
        else
          let! err := sys (Rename p new) in
          match err with
          | Some message => let! _ := print Stderr (refusal p new message) in Ret p
          | None => Ret new
          end) tl (Ret q) ->
    trace_of (parse_file p o) (w ++ [Ev (Lstat p) (inl a); Ev (Lstat new) r] ++ tl) (Ret q)).
  { intros new a r tl PR W T. apply (PP new _ PR). apply done_sys. exists (inl a). eexists. split; [reflexivity|].
    apply done_sys. exists r, tl. split; [reflexivity|]. apply way_iff in W. rewrite W. exact T. }
  destruct F as [(dir & base & L & B)|new m PR|new a b PR W|new a r PR W D|new a r PR W D|new a r m PR W D].
  - unfold parse_file. rewrite (split_path_of p dir base L). apply done_bind.
    rewrite (commented_fun _ _ _ _ _ HS L C).
    destruct (is_protected base) eqn:P.
    + eexists _, [], None. splits; [reflexivity| |now apply done_ret]. apply done_talking. split; auto.
      rewrite sequence_result. unfold sequence_run_filters. now destruct (o_sequence_to_use o).
    + destruct B as [->|[->|B]]; try discriminate. eexists _, [], (Some base). splits; [reflexivity| |].
      * apply done_talking. split; auto. now rewrite sequence_result.
      * rewrite str_eqb_refl. now apply done_ret.
  - apply (PP new _ PR). apply done_sys. exists (inr m), []. split; auto. now apply done_ret.
  - apply (PP new _ PR). apply done_sys. exists (inl a). eexists. split; [reflexivity|].
    apply done_sys. exists (inl b). eexists. split; [reflexivity|]. apply is_other_iff in W. rewrite W.
    apply done_print. eexists. split; [reflexivity|]. now apply done_ret.
  - apply (A new a r [announced p new] PR W). rewrite D, orb_true_r. apply done_print. eexists. split; [reflexivity|]. now apply done_ret.
  - apply (A new a r (announcement_of o p new ++ [Ev (Rename p new) None]) PR W). rewrite D, orb_false_r. unfold announcement_of.
    apply done_bind. exists (announcement_of o p new), [Ev (Rename p new) None], tt. splits; auto.
    + unfold announcement_of. destruct (0 <? o_verbose o)%N; [|now apply done_ret].
      apply done_call. exists tt, []. split; [reflexivity|]. now apply done_ret.
    + apply done_sys. exists None, []. split; [reflexivity|]. now apply done_ret.
  - apply (A new a r (announcement_of o p new ++ [Ev (Rename p new) (Some m); complaint p new m]) PR W). rewrite D, orb_false_r.
    apply done_bind. exists (announcement_of o p new). eexists. exists tt. splits; [reflexivity| |].
    + unfold announcement_of. destruct (0 <? o_verbose o)%N; [|now apply done_ret].
      apply done_call. exists tt, []. split; [reflexivity|]. now apply done_ret.
    + apply done_sys. exists (Some m). eexists. split; [reflexivity|]. apply done_print. eexists. split; [reflexivity|]. now apply done_ret.
Qed.

(** ** Names to pass over *)

Lemma ignore_loop_check fuel : forall n l,
  ogood l -> length (items l) - cursor l < fuel -> ~ hidden n ->
  exists b l', ignore_loop fuel n l = Ok (b, l') /\ ogood l' /\ items l' = items l /\
    check (items l) (cursor l) n b (cursor l').
Proof.
  induction fuel as [|fuel IH]; intros n l G F H; [lia|]. cbn [ignore_loop].
  pose proof (cursor_le l G) as CL.
  destruct (get_good l G) as (r & l1 & E & G1 & I1 & R1 & C1). rewrite E. cbn [bind].
  destruct r as [f|].
  - symmetry in R1. assert (L : cursor l < length (items l)) by (apply nth_error_Some; congruence).
    replace (cursor l =? length (items l)) with false in C1 by (symmetry; apply Nat.eqb_neq; lia).
    destruct (str_eqb n f) eqn:B.
    + apply str_eqb_eq in B. subst f. exists true, l1. splits; auto. rewrite C1. apply check_listed; auto. intros; lia.
    + apply str_eqb_neq in B. destruct (IH n l1 G1) as (b & l2 & E2 & G2 & I2 & C2); [rewrite I1, C1; lia|assumption|].
      exists b, l2. rewrite I1, C1 in C2. splits; auto; [congruence|].
      destruct C2 as [X|i _ Li N1 N2|_ N2].
      * contradiction.
      * apply check_listed; auto; [lia|]. intros j J. destruct (Nat.eq_dec j (cursor l)) as [->|]; [congruence|]. apply N2. lia.
      * apply check_passed; auto. intros j J. destruct (Nat.eq_dec j (cursor l)) as [->|]; [congruence|]. apply N2. lia.
  - symmetry in R1. apply nth_error_None in R1.
    replace (cursor l =? length (items l)) with true in C1 by (symmetry; apply Nat.eqb_eq; lia).
    exists false, l1. splits; auto. rewrite C1. apply check_passed; auto. intros j J X.
    assert (j < length (items l)) by (apply nth_error_Some; congruence). lia.
Qed.

Lemma ignore_file_check n l : ogood l ->
  exists b l', ignore_file n l = Ok (b, l') /\ ogood l' /\ items l' = items l /\ check (items l) (cursor l) n b (cursor l').
Proof.
  intros G. destruct (hidden_dec n) as [H|H].
  - rewrite (ignore_file_hidden n l H). exists true, l. splits; auto. now apply check_hidden.
  - assert (E : ignore_file n l = ignore_loop (S (filelist_count l)) n l).
    { destruct n as [|c r]; [reflexivity|]. simpl. destruct (beq c ".") eqn:B; [|reflexivity].
      apply beq_eq in B. subst c. exfalso. apply H. now exists r. }
    rewrite E. apply ignore_loop_check; auto. rewrite (count_items l G). lia.
Qed.

Lemma check_fun names k n b k' b2 k2 : check names k n b k' -> check names k n b2 k2 -> b2 = b /\ k2 = k'.
Proof.
  intros [H|i H Li N1 N2|H N2] [H'|i' H' Li' N1' N2'|H' N2']; try contradiction; auto.
  - split; auto. destruct (Nat.lt_trichotomy i i') as [L|[->|L]]; auto.
    + elim (N2' i); auto.
    + elim (N2 i'); auto.
  - elim (N2' i); auto.
  - elim (N2 i'); auto.
Qed.

(** ** Directories *)

Lemma kind_dir st : isdir st = true <-> st_kind st = SDir.
Proof. unfold isdir. destruct (st_kind st); split; congruence. Qed.

Lemma kind_not_dir st : isdir st = false <-> st_kind st <> SDir.
Proof. unfold isdir. destruct (st_kind st); split; congruence. Qed.

Lemma kind_file o st : isdir st = false -> (isreg st || o_special o)%bool = true <-> st_kind st = SReg \/ st_kind st = SOther /\ o_special o = true.
Proof. unfold isdir, isreg. destruct (st_kind st), (o_special o); simpl; intuition congruence. Qed.

Lemma kind_special o st : isdir st = false -> (isreg st || o_special o)%bool = false <-> st_kind st = SOther /\ o_special o = false.
Proof. unfold isdir, isreg. destruct (st_kind st), (o_special o); simpl; intuition congruence. Qed.

(** What is left of the ignore list: its names and the position. *)
Definition state_of (names : list str) (k : nat) (l : option filelist) : Prop := ogood l /\ items l = names /\ cursor l = k.

Lemma walk_forward o names fuel :
  (forall p l tr l' k, state_of names k l -> trace_of (parse_dir fuel o p l) tr (Ret l') ->
     exists k', state_of names k' l' /\ directory_done o names k p tr k') /\
  (forall p h st l tr l' k, state_of names k l -> trace_of (dir_loop fuel o p h st l) tr (Ret l') ->
     exists k', state_of names k' l' /\ entries_done o names p h st k tr k').
Proof.
  induction fuel as [|fuel [IHd IHl]].
  { split; intros; cbn [parse_dir dir_loop] in *; exfalso; eapply done_stop; eauto. }
  split.
  - intros p l tr l' k St T. cbn [parse_dir] in T. apply done_sys in T. destruct T as ([st|m] & t & -> & T).
    2:{ apply done_ret in T. destruct T as [-> ->]. exists k. split; auto. apply dir_gone. }
    destruct (isdir st) eqn:D; cbn [negb] in T.
    2:{ apply done_ret in T. destruct T as [-> ->]. exists k. split; auto. apply dir_none. now apply kind_not_dir. }
    apply kind_dir in D. apply done_sys in T. destruct T as ([h|em m] & t2 & -> & T).
    + apply done_bind in T. destruct T as (t1 & t3 & l1 & -> & T1 & T2).
      apply done_sys in T2. destruct T2 as ([] & t4 & -> & T2). apply done_ret in T2. destruct T2 as [-> ->].
      destruct (IHl _ _ _ _ _ _ _ St T1) as (k' & St' & E). exists k'. split; auto. now apply dir_read.
    + apply done_print in T. destruct T as (t3 & -> & T). destruct em; [now apply done_stop in T|].
      apply done_ret in T. destruct T as [-> ->]. exists k. split; auto. now apply dir_closed.
  - intros p h st l tr l' k St T. cbn [dir_loop] in T. apply done_sys in T. destruct T as ([n|] & t & -> & T).
    2:{ apply done_ret in T. destruct T as [-> ->]. exists k. split; auto. apply entries_end. }
    apply done_bind in T. destruct T as (t1 & t2 & [b l1] & -> & T1 & T). apply done_lift in T1. destruct T1 as [-> E]. cbn [app].
    destruct St as (G & It & Cu). destruct (ignore_file_check n l G) as (b' & l1' & E' & G1 & I1 & C1).
    rewrite E in E'. injection E' as <- <-. rewrite It, Cu in C1. rewrite It in I1.
    assert (St1 : state_of names (cursor l1) l1) by (split; auto).
    destruct b.
    { destruct (IHl _ _ _ _ _ _ _ St1 T) as (k' & St' & En). exists k'. split; auto. now apply entries_skip with (cursor l1). }
    cbv zeta in T. apply done_sys in T. destruct T as (r & t3 & -> & T). fold (path_of_entry p n) in *.
    change (match r with inl x => x | inr _ => st end) with (latest_stat st r) in T.
    change (entry_path p n) with (path_of_entry p n) in *.
    apply done_bind in T. destruct T as (t4 & t5 & l2 & -> & T1 & T2).
    assert (M : exists k2, state_of names k2 l2 /\ entry_done o names (cursor l1) (path_of_entry p n) (latest_stat st r) t4 k2).
    { destruct (isdir (latest_stat st r)) eqn:D.
      - apply kind_dir in D. apply done_bind in T1. destruct T1 as (t6 & t7 & q & -> & T1 & T3). apply file_forward in T1.
        destruct (o_recurse o) eqn:Re.
        + destruct (IHd _ _ _ _ _ St1 T3) as (k2 & St2 & Dd). exists k2. split; auto. now apply entry_deep with q.
        + apply done_ret in T3. destruct T3 as [-> ->]. rewrite app_nil_r. exists (cursor l1). split; auto. now apply entry_dir with q.
      - destruct (isreg (latest_stat st r) || o_special o)%bool eqn:Sp.
        + apply kind_file in Sp; auto. apply done_bind in T1. destruct T1 as (t6 & t7 & q & -> & T1 & T3). apply file_forward in T1.
          apply done_ret in T3. destruct T3 as [-> ->]. rewrite app_nil_r. exists (cursor l1). split; auto. now apply entry_file with q.
        + apply kind_special in Sp; auto. apply done_ret in T1. destruct T1 as [-> ->]. exists (cursor l1). split; auto.
          now apply entry_special. }
    destruct M as (k2 & St2 & En). destruct (IHl _ _ _ _ _ _ _ St2 T2) as (k' & St' & En').
    exists k'. split; auto. eapply entries_next; eauto.
Qed.

Scheme directory_ind := Induction for directory_done Sort Prop
  with entries_ind := Induction for entries_done Sort Prop
  with entry_ind := Induction for entry_done Sort Prop.
Combined Scheme walk_done_ind from directory_ind, entries_ind, entry_ind.

(** The part of the loop body that deals with one entry. *)
Definition deal_with (fuel : nat) (o : options_t) (p : str) (st : stat) (l : option filelist) : prog (option filelist) :=
  if isdir st then
    let! work := parse_file p o in
    if o_recurse o then parse_dir fuel o work l else Ret l
  else if (isreg st || o_special o)%bool then
    let! _ := parse_file p o in Ret l
  else Ret l.

Lemma walk_backward o names : o_sequence_to_use o <> None ->
  (forall k p tr k', directory_done o names k p tr k' ->
     exists m, forall fuel l, m <= fuel -> state_of names k l ->
       exists l', state_of names k' l' /\ trace_of (parse_dir fuel o p l) tr (Ret l')) /\
  (forall p h st k tr k', entries_done o names p h st k tr k' ->
     exists m, forall fuel l, m <= fuel -> state_of names k l ->
       exists l', state_of names k' l' /\ trace_of (dir_loop fuel o p h st l) tr (Ret l')) /\
  (forall k p st tr k', entry_done o names k p st tr k' ->
     exists m, forall fuel l, m <= fuel -> state_of names k l ->
       exists l', state_of names k' l' /\ trace_of (deal_with fuel o p st l) tr (Ret l')).
Proof.
  intros HS. apply (walk_done_ind o names
    (fun k p tr k' _ => exists m, forall fuel l, m <= fuel -> state_of names k l ->
       exists l', state_of names k' l' /\ trace_of (parse_dir fuel o p l) tr (Ret l'))
    (fun p h st k tr k' _ => exists m, forall fuel l, m <= fuel -> state_of names k l ->
       exists l', state_of names k' l' /\ trace_of (dir_loop fuel o p h st l) tr (Ret l'))
    (fun k p st tr k' _ => exists m, forall fuel l, m <= fuel -> state_of names k l ->
       exists l', state_of names k' l' /\ trace_of (deal_with fuel o p st l) tr (Ret l'))).
  - intros k p m. exists 1. intros [|fuel] l L St; [lia|]. exists l. split; auto. cbn [parse_dir].
    apply done_sys. exists (inr m), []. split; auto. now apply done_ret.
  - intros k p st D. exists 1. intros [|fuel] l L St; [lia|]. exists l. split; auto. cbn [parse_dir].
    apply done_sys. exists (inl st), []. split; auto. apply kind_not_dir in D. rewrite D. now apply done_ret.
  - intros k p st m D. exists 1. intros [|fuel] l L St; [lia|]. exists l. split; auto. cbn [parse_dir].
    apply done_sys. exists (inl st). eexists. split; [reflexivity|]. apply kind_dir in D. rewrite D. cbn [negb].
    apply done_sys. exists (NotOpened false m). eexists. split; [reflexivity|].
    apply done_print. eexists. split; [reflexivity|]. now apply done_ret.
  - intros k p st h tr k' D _ (m & IH). exists (S m). intros [|fuel] l L St; [lia|].
    destruct (IH fuel l) as (l' & St' & T); [lia|assumption|]. exists l'. split; auto. cbn [parse_dir].
    apply done_sys. exists (inl st). eexists. split; [reflexivity|]. apply kind_dir in D. rewrite D. cbn [negb].
    apply done_sys. exists (Opened h). eexists. split; [reflexivity|].
    apply done_bind. exists tr. eexists. exists l'. splits; [reflexivity|assumption|].
    apply done_sys. exists tt, []. split; [reflexivity|]. now apply done_ret.
  - intros p h st k. exists 1. intros [|fuel] l L St; [lia|]. exists l. split; auto. cbn [dir_loop].
    apply done_sys. exists None, []. split; auto. now apply done_ret.
  - intros p h st k n k1 tr k' C _ (m & IH). exists (S m). intros [|fuel] l L St; [lia|].
    destruct St as (G & It & Cu). destruct (ignore_file_check n l G) as (b & l1 & E & G1 & I1 & C1). rewrite It, Cu in C1.
    destruct (check_fun _ _ _ _ _ _ _ C C1) as [-> Ck].
    destruct (IH fuel l1) as (l' & St' & T); [lia|now repeat split; congruence|]. exists l'. split; auto. cbn [dir_loop].
    apply done_sys. exists (Some n). eexists. split; [reflexivity|].
    apply done_bind. exists [], tr, (true, l1). splits; auto. apply done_lift. auto.
  - intros p h st k n k1 r t1 k2 t2 k' C _ (m1 & IH1) _ (m2 & IH2). exists (S (m1 + m2)). intros [|fuel] l L St; [lia|].
    destruct St as (G & It & Cu). destruct (ignore_file_check n l G) as (b & l1 & E & G1 & I1 & C1). rewrite It, Cu in C1.
    destruct (check_fun _ _ _ _ _ _ _ C C1) as [-> Ck].
    destruct (IH1 fuel l1) as (l2 & St2 & T1); [lia|now repeat split; congruence|].
    destruct (IH2 fuel l2) as (l' & St' & T2); [lia|assumption|]. exists l'. split; auto. cbn [dir_loop].
    apply done_sys. exists (Some n). eexists. split; [reflexivity|].
    apply done_bind. exists []. eexists. exists (false, l1). splits; [reflexivity|apply done_lift; auto|].
    cbv zeta. apply done_sys. exists r. eexists. split; [reflexivity|].
    apply done_bind. exists t1, t2, l2. splits; auto.
  - intros k p st tr q D F. exists 0. intros fuel l _ St. exists l. split; auto. unfold deal_with.
    assert (D' : isdir st = false) by (apply kind_not_dir; destruct D as [D|[D _]]; congruence). rewrite D'.
    apply (kind_file o) in D'. apply D' in D. rewrite D. apply done_bind. exists tr, [], q. rewrite app_nil_r.
    splits; auto; [now apply file_backward | now apply done_ret].
  - intros k p st D Sp. exists 0. intros fuel l _ St. exists l. split; auto. unfold deal_with.
    assert (D' : isdir st = false) by (apply kind_not_dir; congruence). rewrite D'.
    apply (kind_special o) in D'. rewrite (proj2 D' (conj D Sp)). now apply done_ret.
  - intros k p st tr q D Re F. exists 0. intros fuel l _ St. exists l. split; auto. unfold deal_with.
    apply kind_dir in D. rewrite D, Re. apply done_bind. exists tr, [], q. rewrite app_nil_r.
    splits; auto; [now apply file_backward | now apply done_ret].
  - intros k p st t1 q t2 k' D Re F _ (m & IH). exists m. intros fuel l L St.
    destruct (IH fuel l L St) as (l' & St' & T). exists l'. split; auto. unfold deal_with.
    apply kind_dir in D. rewrite D, Re. apply done_bind. exists t1, t2, q. splits; auto. now apply file_backward.
Qed.

(** ** Arguments *)

Lemma argument_forward o names fuel f l tr l' k : state_of names k l ->
  trace_of (process_argument fuel o f l) tr (Ret l') ->
  exists k', state_of names k' l' /\ argument_done o names k f tr k'.
Proof.
  intros St T. unfold process_argument in T. apply done_bind in T. destruct T as (t0 & t & [] & -> & T0 & T).
  assert (t0 = scanning o f) as ->.
  { unfold scanning. destruct (0 <? o_verbose o)%N.
    - apply done_call in T0. destruct T0 as ([] & t1 & -> & T0). apply done_ret in T0. now destruct T0 as [-> _].
    - apply done_ret in T0. now destruct T0. }
  apply done_sys in T. destruct T as ([st|m] & t1 & -> & T).
  2:{ apply done_print in T. destruct T as (t2 & -> & T). apply done_ret in T. destruct T as [-> ->]. exists k. split; auto. apply arg_gone. }
  destruct (isdir st) eqn:D.
  - apply kind_dir in D. apply done_bind in T. destruct T as (t2 & t3 & q & -> & T1 & T2). apply file_forward in T1.
    destruct (proj1 (walk_forward o names fuel) _ _ _ _ _ St T2) as (k' & St' & Dd). exists k'. split; auto. now apply arg_dir with q.
  - destruct (isreg st || o_special o)%bool eqn:Sp.
    + apply kind_file in Sp; auto. apply done_bind in T. destruct T as (t2 & t3 & q & -> & T1 & T2). apply file_forward in T1.
      apply done_ret in T2. destruct T2 as [-> ->]. rewrite app_nil_r. exists k. split; auto. now apply arg_file with q.
    + apply kind_special in Sp; auto. apply done_ret in T. destruct T as [-> ->]. exists k. split; auto. now apply arg_special.
Qed.

Lemma arguments_forward o names fuel fs : forall l tr l' k, state_of names k l ->
  trace_of (process_arguments fuel o fs l) tr (Ret l') ->
  exists k', state_of names k' l' /\ arguments_done o names k fs tr k'.
Proof.
  induction fs as [|f fs IH]; intros l tr l' k St T; cbn [process_arguments] in T.
  - apply done_ret in T. destruct T as [-> ->]. exists k. split; auto. apply args_none.
  - apply done_bind in T. destruct T as (t1 & t2 & l1 & -> & T1 & T2).
    destruct (argument_forward _ _ _ _ _ _ _ _ St T1) as (k1 & St1 & A1).
    destruct (IH _ _ _ _ St1 T2) as (k' & St' & A2). exists k'. split; auto. eapply args_more; eauto.
Qed.

Lemma argument_backward o names k f tr k' : o_sequence_to_use o <> None -> argument_done o names k f tr k' ->
  exists m, forall fuel l, m <= fuel -> state_of names k l ->
    exists l', state_of names k' l' /\ trace_of (process_argument fuel o f l) tr (Ret l').
Proof.
  intros HS A.
  assert (Sc : trace_of (if (0 <? o_verbose o)%N then print Stdout (bs "Scanning: " ++ f ++ [Nb 10]) else Ret tt) (scanning o f) (Ret tt)).
  { unfold scanning. destruct (0 <? o_verbose o)%N; [|now apply done_ret].
    apply done_call. exists tt, []. split; [reflexivity|]. now apply done_ret. }
  destruct A as [m|st tr q D F|st D Sp|st t1 q t2 k' D F Dd].
  - exists 0. intros fuel l _ St. exists l. split; auto. unfold process_argument. apply done_bind. exists (scanning o f). eexists. exists tt.
    splits; [reflexivity|assumption|]. apply done_sys. exists (inr m). eexists. split; [reflexivity|].
    apply done_print. eexists. split; [reflexivity|]. now apply done_ret.
  - exists 0. intros fuel l _ St. exists l. split; auto. unfold process_argument. apply done_bind. exists (scanning o f). eexists. exists tt.
    splits; [reflexivity|assumption|]. apply done_sys. exists (inl st). eexists. split; [reflexivity|].
    assert (D' : isdir st = false) by (apply kind_not_dir; destruct D as [D|[D _]]; congruence). rewrite D'.
    apply (kind_file o) in D'. apply D' in D. rewrite D. apply done_bind. exists tr, [], q. rewrite app_nil_r.
    splits; auto; [now apply file_backward | now apply done_ret].
  - exists 0. intros fuel l _ St. exists l. split; auto. unfold process_argument. apply done_bind. exists (scanning o f). eexists. exists tt.
    splits; [reflexivity|assumption|]. apply done_sys. exists (inl st). eexists. split; [reflexivity|].
    assert (D' : isdir st = false) by (apply kind_not_dir; congruence). rewrite D'.
    apply (kind_special o) in D'. rewrite (proj2 D' (conj D Sp)). now apply done_ret.
  - destruct (proj1 (walk_backward o names HS) _ _ _ _ Dd) as (m & IH). exists m. intros fuel l L St.
    destruct (IH fuel l L St) as (l' & St' & T). exists l'. split; auto. unfold process_argument.
    apply done_bind. exists (scanning o f). eexists. exists tt.
    splits; [reflexivity|assumption|]. apply done_sys. exists (inl st). eexists. split; [reflexivity|].
    apply kind_dir in D. rewrite D. apply done_bind. exists t1, t2, q. splits; auto. now apply file_backward.
Qed.

Lemma arguments_backward o names k fs tr k' : o_sequence_to_use o <> None -> arguments_done o names k fs tr k' ->
  exists m, forall fuel l, m <= fuel -> state_of names k l ->
    exists l', state_of names k' l' /\ trace_of (process_arguments fuel o fs l) tr (Ret l').
Proof.
  intros HS. induction 1 as [k|k f fs t1 k1 t2 k2 A _ (m2 & IH)].
  - exists 0. intros fuel l _ St. exists l. split; auto. now apply done_ret.
  - destruct (argument_backward _ _ _ _ _ _ HS A) as (m1 & H1). exists (m1 + m2). intros fuel l L St.
    destruct (H1 fuel l) as (l1 & St1 & T1); [lia|assumption|].
    destruct (IH fuel l1) as (l2 & St2 & T2); [lia|assumption|].
    exists l2. split; auto. cbn [process_arguments]. apply done_bind. exists t1, t2, l1. auto.
Qed.

Lemma work_done o files ign tr : o_sequence_to_use o <> None -> usable_list ign ->
  (exists fuel ign', trace_of (process_arguments fuel o files ign) tr (Ret ign')) <->
  (exists k, arguments_done o (items ign) (cursor ign) files tr k).
Proof.
  intros HS U. assert (St : state_of (items ign) (cursor ign) ign) by (split; [now apply usable_good|auto]). split.
  - intros (fuel & l & T). destruct (arguments_forward _ _ _ _ _ _ _ _ St T) as (k & _ & A). eauto.
  - intros (k & A). destruct (arguments_backward _ _ _ _ _ _ HS A) as (m & H). destruct (H m ign (le_n _) St) as (l & _ & T). eauto.
Qed.
