(** * Executions of the work with lists and sequence in memory *)

From Verif Require Import Base BaseFacts Stdio Filter Filelist Prog ProgFacts Warnings File FileSpec Inline Startup Main Mem MemFacts MemSpec CFilters CFiltersProofs CFile CSim
  CFileProofs Words WordsSpec WordsFacts CFilelist FilesSpec CLoadSpec CReviewSpec CRun CRunSpec CRunProofs CWork CWorkSpec CWorkSim CWorkProofs CWorkProofs2.

Local Open Scope nat_scope.

Lemma wsim_far {al : allocator} {A} short over (R : list event -> A * store_t -> A -> Prop) tr p q : wsim short over R tr p q -> (forall tr a b, R tr a b -> fst a = b) ->
  (as_far_as p q \/ at_a_loss short p) \/ over tr.
Proof.
  intros S K. destruct S as [tr [a s] b H|tr w|tr c k k' H|tr message h n q E Sh|tr p q O].
  - left. left. exact (K _ _ _ H).
  - left. now left.
  - left. now left.
  - left. right. exists message, h, n. auto.
  - now right.
Qed.

Lemma lookups_both pf fl a b : lookups pf fl (a ++ b) = lookups pf fl a + lookups pf fl b.
Proof. induction a as [|x a IH]; cbn [app lookups]; lia. Qed.

Lemma worn_on pf q k a b : worn pf q k a -> worn pf q k (a ++ b).
Proof. unfold worn, names_in. rewrite flat_map_app, lookups_both. lia. Qed.

Section executions.

Context {al : allocator} {A B S : Type} (short : heap -> N -> Prop) (over : list event -> Prop) (R : list event -> A -> B -> Prop).
Variable step : S -> forall c, answer c -> S -> Prop.
Variable interference : S -> S -> Prop.

Lemma wsim_runs_back tr0 p q : wsim short over R tr0 p q -> forall s tr s' q', runs step interference q s tr s' q' -> Forall fair_event tr ->
  (exists p', runs step interference p s tr s' p' /\ wsim short over R (tr0 ++ tr) p' q') \/
  (exists before after s1 p1, tr = before ++ after /\ runs step interference p s before s1 p1 /\ at_a_loss short p1) \/
  exists before after, tr = before ++ after /\ over (tr0 ++ before).
Proof.
  intros H. induction H as [tr0 a b H|tr0 w|tr0 c k k' H IH|tr0 message h n q E Sh|tr0 p q O]; intros s tr s' q' Ru F.
  - destruct Ru as [(-> & -> & ->)|[]]. left. exists (Ret a). rewrite app_nil_r. split; [now left|now apply wsim_ret].
  - destruct Ru as [(-> & -> & ->)|[]]. left. exists (Stop w). split; [now left|apply wsim_stop].
  - destruct Ru as [(-> & -> & ->)|(s0 & r & s1 & tr' & I & St & -> & Ru)].
    { left. exists (Call c k). rewrite app_nil_r. split; [now left|now apply wsim_call]. }
    inversion F as [|? ? F1 F2]. subst. destruct (IH r F1 _ _ _ _ Ru F2) as [(p' & Rq & Sq)|[(before & after & s2 & p1 & -> & Rp & L)|(before & after & -> & O)]].
    + left. exists p'. split; [|now rewrite <- app_assoc in Sq]. right. exists s0, r, s1, tr'. auto.
    + right. left. exists (Ev c r :: before), after, s2, p1. splits; auto; right; exists s0, r, s1, before; auto.
    + right. right. exists (Ev c r :: before), after. split; [reflexivity|]. now rewrite <- app_assoc in O.
  - right. left. exists [], tr, s, (gives_up message). splits; auto; [now left|]. exists message, h, n. auto.
  - right. right. exists [], tr. rewrite app_nil_r. auto.
Qed.

End executions.

Section work.

Context {al : allocator}.
Hypothesis Lim : limited al.
Context {S : Type} (step : S -> forall c, answer c -> S -> Prop) (interference : S -> S -> Prop).
Context (literal : str -> ptr) (m : store_t) (sequence ignore files : option ptr) (q : sequence_t) (ign fs : option filelist) (k : nat) (sown iown fown : list nat) (fuel : nat) (o : options_t).
Hypothesis (Use : o_sequence_to_use o = Some q) (Set_up : set_up literal m sequence ignore files q ign fs k sown iown fown) (Cu : cursor fs = 0) (Bd : bounded (s_heap m)).

Lemma work_sim : wsim (more_than m) (worn (o_platform o) q k)
  (work_did literal sequence ignore files q sown iown fown (s_heap m) k (items ign) o fs (s_heap m)) []
  (w_work literal sequence ignore files fuel o m) (work fuel o (items fs) ign).
Proof.
  assert (St : steady literal sequence ignore files q sown iown fown (s_heap m) (items ign) ign fs k (s_words m)) by (split; [now rewrite store_eta|reflexivity]).
  pose proof (work_wsim Lim literal sequence ignore files q sown iown fown (s_heap m) k (items ign) o Use fuel ign fs Bd Cu (s_words m) St) as W.
  rewrite store_eta in W. eapply wsim_mono; [exact W| |]; auto.
Qed.

Lemma work_runs s tr s' p' : runs step interference (w_work literal sequence ignore files fuel o m) s tr s' p' -> Forall fair_event tr -> ~ worn (o_platform o) q k tr ->
  (exists q', runs step interference (work fuel o (items fs) ign) s tr s' q' /\ (as_far_as p' q' \/ at_a_loss (more_than m) p')) \/
  ends_short (more_than m) step interference (work fuel o (items fs) ign) s tr s' p'.
Proof.
  intros Ru F N. destruct (wsim_runs _ _ _ step interference [] _ _ work_sim _ _ _ _ Ru F) as [(q' & Rq & H)|[H|(before & after & -> & O)]].
  - left. exists q'. split; [exact Rq|]. destruct (wsim_far _ _ _ _ _ _ H) as [X|X]; [now intros tr0 a b (E & _)|exact X|contradiction].
  - now right.
  - exfalso. apply N. now apply worn_on.
Qed.

Lemma work_runs_back s tr s' q' : runs step interference (work fuel o (items fs) ign) s tr s' q' -> Forall fair_event tr -> ~ worn (o_platform o) q k tr ->
  (exists p', runs step interference (w_work literal sequence ignore files fuel o m) s tr s' p' /\ (as_far_as p' q' \/ at_a_loss (more_than m) p')) \/
  (exists before after s1 p1, tr = before ++ after /\ runs step interference (w_work literal sequence ignore files fuel o m) s before s1 p1 /\ at_a_loss (more_than m) p1).
Proof.
  intros Ru F N. destruct (wsim_runs_back _ _ _ step interference [] _ _ work_sim _ _ _ _ Ru F) as [(p' & Rp & H)|[H|(before & after & -> & O)]].
  - left. exists p'. split; [exact Rp|]. destruct (wsim_far _ _ _ _ _ _ H) as [X|X]; [now intros tr0 a b (E & _)|exact X|contradiction].
  - now right.
  - exfalso. apply N. now apply worn_on.
Qed.

Lemma work_left s tr s' n m' : runs step interference (w_work literal sequence ignore files fuel o m) s tr s' (Ret (n, m')) -> Forall fair_event tr -> ~ worn (o_platform o) q k tr ->
  runs step interference (work fuel o (items fs) ign) s tr s' (Ret n) /\
  (exists new, s_heap m' = s_heap m ++ new /\
     if o_is_inline_mode o then read_in tr <= live new <= read_in tr + dotted_in tr else opened_in tr <= live new <= opened_in tr + 2 * asked_in tr) /\
  exists ign' fs' k', items ign' = items ign /\ items fs' = items fs /\ cursor fs' = 0 /\ k' <= k + lookups (o_platform o) (s_filters q) (names_in (p_schar (o_platform o)) tr) /\
    set_up literal m' sequence ignore files q ign' fs' k' sown iown fown.
Proof.
  intros Ru F N. destruct (wsim_runs _ _ _ step interference [] _ _ work_sim _ _ _ _ Ru F) as [(q' & Rq & H)|[(b & ms & h0 & n0 & s1 & s2 & q' & _ & _ & _ & E & _)|(before & after & -> & O)]].
  - inversion H as [tr0 a b D| | | |tr0 p0 q1 O]; subst.
    + destruct D as (E & New & ign' & fs' & Ei & Ec & Lo & k' & Lk & St). cbn [fst snd] in *. subst b. splits; auto.
      exists ign', fs', k'. splits; auto; [exact (proj2 St)|]. rewrite <- (store_eta m'). eapply steady_at; eauto.
    + contradiction.
  - discriminate.
  - exfalso. apply N. now apply worn_on.
Qed.

End work.
