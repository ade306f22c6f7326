(** * Programs in memory against programs on lists *)

From Verif Require Import Base BaseFacts Stdio Prog ProgFacts Warnings Mem MemFacts MemSpec CFiltersProofs CFile MainSpec MainProofs WarningsProofs.

Local Open Scope nat_scope.

Section sim.

Context {al : allocator}.

(** The first program does the calls of the second and ends as it does, with results that
    are related by [R], unless it runs out of memory on the way.  [tr] are the calls so
    far. *)
Inductive sim {A B} (R : list event -> A -> B -> Prop) : list event -> prog A -> prog B -> Prop :=
| sim_ret tr a b : R tr a b -> sim R tr (Ret a) (Ret b)
| sim_stop tr w : sim R tr (Stop w) (Stop w)
| sim_call tr c k k' : (forall r, fair c r -> sim R (tr ++ [Ev c r]) (k r) (k' r)) -> sim R tr (Call c k) (Call c k')
| sim_memory tr message h n q : refusal_of h n = Some message -> sim R tr (gives_up message) q.

Lemma sim_bind {A B A' B'} (R : list event -> A -> B -> Prop) (R' : list event -> A' -> B' -> Prop) tr p q f g :
  sim R tr p q -> (forall tr' a b, R tr' a b -> sim R' tr' (f a) (g b)) -> sim R' tr (pbind p f) (pbind q g).
Proof.
  intros S K. induction S as [tr a b H|tr w|tr c k k' H IH|tr message h n q E]; cbn [pbind].
  - now apply K.
  - apply sim_stop.
  - apply sim_call. intros r F. now apply IH.
  - exact (sim_memory R' tr message h n _ E).
Qed.

Lemma sim_then {A B A'} (R : list event -> A -> B -> Prop) (R' : list event -> A' -> B -> Prop) tr p q f :
  sim R tr p q -> (forall tr' a b, R tr' a b -> sim R' tr' (f a) (Ret b)) -> sim R' tr (pbind p f) q.
Proof.
  intros S K. induction S as [tr a b H|tr w|tr c k k' H IH|tr message h n q E]; cbn [pbind].
  - now apply K.
  - apply sim_stop.
  - apply sim_call. intros r F. now apply IH.
  - exact (sim_memory R' tr message h n _ E).
Qed.

Lemma sim_weaken {A B} (R R' : list event -> A -> B -> Prop) tr p q :
  sim R tr p q -> (forall tr' a b, R tr' a b -> R' tr' a b) -> sim R' tr p q.
Proof.
  intros S K. induction S as [tr a b H|tr w|tr c k k' H IH|tr message h n q E].
  - apply sim_ret. now apply K.
  - apply sim_stop.
  - apply sim_call. intros r F. now apply IH.
  - exact (sim_memory R' tr message h n _ E).
Qed.

(** ... and the calls are those of the second. *)
Lemma sim_only {A B} (P : call -> Prop) (R : list event -> A -> B -> Prop) tr p q : sim R tr p q -> only P q ->
  sim (fun tr' a b => R tr' a b /\ exists more, tr' = tr ++ more /\ Forall (fun e => match e with Ev c _ => P c end) more) tr p q.
Proof.
  intros S. induction S as [tr a b H|tr w|tr c k k' H IH|tr message h n q E]; intros O.
  - apply sim_ret. split; [exact H|]. exists []. now rewrite app_nil_r.
  - apply sim_stop.
  - apply sim_call. intros r F. destruct O as [Pc O]. eapply sim_weaken; [exact (IH r F (O r))|].
    intros tr' a b [Hr (more & -> & Fm)]. split; [exact Hr|]. exists (Ev c r :: more). rewrite <- app_assoc. split; [reflexivity|]. now constructor.
  - exact (sim_memory _ tr message h n _ E).
Qed.

Context {A B : Type} (R : list event -> A * heap -> B -> Prop).

Lemma sim_mem {C} tr (m : mem C) (k : C -> cprog A) h c h' q :
  m h = done (c, h') -> sim R tr (k c h') q -> sim R tr (cbind (inside m) k h) q.
Proof. intros E S. unfold cbind, inside. rewrite E. exact S. Qed.

Lemma sim_skip {C} tr (c : C) (k : C -> cprog A) h q : sim R tr (k c h) q -> sim R tr (cbind (cret c) k h) q.
Proof. exact (fun S => S). Qed.

Lemma sim_mem_in {C D} tr (m : mem C) (k : C -> cprog D) (j : D -> cprog A) h c h' q :
  m h = done (c, h') -> sim R tr (cbind (k c) j h') q -> sim R tr (cbind (cbind (inside m) k) j h) q.
Proof. intros E S. unfold cbind, inside. rewrite E. exact S. Qed.

Lemma sim_sys tr c (k : answer c -> cprog A) k' h :
  (forall r, fair c r -> sim R (tr ++ [Ev c r]) (k r h) (k' r)) -> sim R tr (cbind (csys c) k h) (let! r := sys c in k' r).
Proof. intros S. apply sim_call. exact S. Qed.

Lemma sim_told_both tr texts (p : prog (A * heap)) (q : prog B) :
  (sim R (tr ++ map heard texts) p q) -> sim R tr (told texts p) (told texts q).
Proof.
  revert tr. induction texts as [|[out text] texts IH]; intros tr S; cbn [told map] in *.
  - now rewrite app_nil_r in S.
  - apply sim_call. intros [] _. apply IH. now rewrite <- app_assoc.
Qed.

Lemma sim_gave_up {C D} tr (h0 : heap) (c : talk C) (m : talk D) (k : C -> prog (A * heap)) k' :
  gave_up h0 c m -> sim R tr (pbind (talking c) k) (pbind (talking m) k').
Proof.
  intros (o & o' & message & h & n & E & -> & Em). rewrite !talking_bind, Em. cbn [fst snd]. rewrite !told_app. apply sim_told_both.
  exact (sim_memory R _ message _ n _ E).
Qed.

Lemma sim_gave_up_quiet {C D} tr (h0 : heap) (c : talk C) (m : talk D) (k : C -> prog (A * heap)) q :
  fst m = [] -> gave_up h0 c m -> sim R tr (pbind (talking c) k) q.
Proof.
  intros Q (o & o' & message & h & n & E & -> & Em). rewrite Q in Em. symmetry in Em. apply app_eq_nil in Em. destruct Em as [-> ->].
  exact (sim_memory R _ message _ n _ E).
Qed.

Lemma mbind_mret {C} (m : mem C) h : mbind m mret h = m h.
Proof. unfold mbind, mret. destruct (m h) as [o [[a h']|w|c]]; cbn; auto. now rewrite app_nil_r. Qed.

Hypothesis Lim : limited al.

Lemma sim_malloc tr n (k : ptr -> cprog A) (h : heap) q :
  (bounded (h ++ [Some (repeat None (N.to_nat n))]) -> sim R tr (k (mkPtr (length h) 0) (h ++ [Some (repeat None (N.to_nat n))])) q) ->
  sim R tr (cbind (inside (malloc n)) k h) q.
Proof.
  intros S. unfold cbind, inside. rewrite <- mbind_mret.
  apply (malloc_step Lim h n mret (@done unit tt) (fun c => sim R tr (pbind (talking c) (fun '(a, h') => k a h')) q)).
  - intros Bd. exact (S Bd).
  - intros c G. now apply (sim_gave_up_quiet tr h c (@done unit tt)).
Qed.

Lemma sim_strdup tr p s (k : ptr -> cprog A) (h : heap) q : cstr_at h p s -> fits s ->
  (bounded (h ++ [Some (map Some s ++ [Some NUL])]) -> sim R tr (k (mkPtr (length h) 0) (h ++ [Some (map Some s ++ [Some NUL])])) q) ->
  sim R tr (cbind (inside (c_strdup p)) k h) q.
Proof.
  intros C F S. unfold cbind, inside. rewrite <- mbind_mret.
  apply (strdup_step Lim h p s mret (@done unit tt) (fun c => sim R tr (pbind (talking c) (fun '(a, h') => k a h')) q) C F).
  - intros Bd. exact (S Bd).
  - intros c G. now apply (sim_gave_up_quiet tr h c (@done unit tt)).
Qed.

Lemma sim_strdup_of tr s (k : ptr -> cprog A) (h : heap) q : fits s ->
  (bounded (h ++ [Some (map Some s ++ [Some NUL])]) -> sim R tr (k (mkPtr (length h) 0) (h ++ [Some (map Some s ++ [Some NUL])])) q) ->
  sim R tr (cbind (inside (c_strdup_of s)) k h) q.
Proof.
  intros F S. unfold cbind, inside. rewrite <- mbind_mret.
  apply (strdup_of_step Lim h s mret (@done unit tt) (fun c => sim R tr (pbind (talking c) (fun '(a, h') => k a h')) q) F).
  - intros Bd. exact (S Bd).
  - intros c G. now apply (sim_gave_up_quiet tr h c (@done unit tt)).
Qed.

(** A sequence is run. *)
Lemma sim_sequence tr (h : heap) c m (k : option ptr -> cprog A) k' : same h c m ->
  (forall tr' q r h2, snd m = Ok (Some r) -> tr' = tr ++ map heard (fst m) -> leaves h q r h2 -> sim R tr' (k (Some q) h2) (k' (Some r))) ->
  (forall tr' n, snd m = Ok None -> tr' = tr ++ map heard (fst m) -> bounded (h ++ repeat None n) -> sim R tr' (k None (h ++ repeat None n)) (k' None)) ->
  sim R tr (pbind (talking c) (fun '(a, h') => k a h')) (pbind (talking m) k').
Proof.
  intros [H|H] K1 K2; [|now apply (sim_gave_up tr h)]. rewrite !talking_bind. destruct H as [E H]. rewrite E. apply sim_told_both.
  destruct (snd c) as [[[q|] h2]|w|x], (snd m) as [[r|]|w'|x']; try contradiction.
  - now apply K1.
  - destruct H as [[n ->] Bd]. now apply K2.
  - subst w'. apply sim_stop.
  - subst x'. apply sim_stop.
Qed.

End sim.

(** ** What that says about executions *)

Section executions.

Context {al : allocator} {A B S : Type} (R : list event -> A -> B -> Prop).
Variable step : S -> forall c, answer c -> S -> Prop.
Variable interference : S -> S -> Prop.

Lemma sim_runs tr0 p q : sim R tr0 p q -> forall s tr s' p', runs step interference p s tr s' p' -> Forall fair_event tr ->
  (exists q', runs step interference q s tr s' q' /\ sim R (tr0 ++ tr) p' q') \/ ended_without_memory step interference q s tr s' p'.
Proof.
  intros H. induction H as [tr0 a b H|tr0 w|tr0 c k k' H IH|tr0 message h n q E]; intros s tr s' p' Ru F.
  - destruct Ru as [(-> & -> & ->)|[]]. left. exists (Ret b). rewrite app_nil_r. split; [now left|now apply sim_ret].
  - destruct Ru as [(-> & -> & ->)|[]]. left. exists (Stop w). split; [now left|apply sim_stop].
  - destruct Ru as [(-> & -> & ->)|(s0 & r & s1 & tr' & I & St & -> & Ru)].
    { left. exists (Call c k'). rewrite app_nil_r. split; [now left|now apply sim_call]. }
    inversion F as [|? ? F1 F2]. subst. destruct (IH r F1 _ _ _ _ Ru F2) as [(q' & Rq & Sq)|(before & message & h & n & s2 & s3 & q' & E & -> & -> & Rq & I2 & St2)].
    + left. exists q'. split; [|now rewrite <- app_assoc in Sq]. right. exists s0, r, s1, tr'. auto.
    + right. exists (Ev c r :: before), message, h, n, s2, s3, q'. splits; auto. right. exists s0, r, s1, before. auto.
  - destruct Ru as [(-> & -> & ->)|(s0 & r & s1 & tr' & I & St & -> & Ru)].
    { left. exists q. split; [destruct q; now left|exact (sim_memory R _ message h n q E)]. }
    destruct Ru as [(-> & -> & ->)|[]]. right. destruct r. exists [], message, h, n, s, s0, q. splits; auto. destruct q; now left.
Qed.

(** Whatever the program on lists can do, the program in memory does it, or has run out
    of memory before. *)
Lemma sim_runs_back tr0 p q : sim R tr0 p q -> forall s tr s' q', runs step interference q s tr s' q' -> Forall fair_event tr ->
  (exists p', runs step interference p s tr s' p' /\ sim R (tr0 ++ tr) p' q') \/
  (exists before after message h n s1 q1, tr = before ++ after /\ refusal_of h n = Some message /\
     runs step interference p s before s1 (gives_up message) /\ runs step interference q s before s1 q1).
Proof.
  intros H. induction H as [tr0 a b H|tr0 w|tr0 c k k' H IH|tr0 message h n q E]; intros s tr s' q' Ru F.
  - destruct Ru as [(-> & -> & ->)|[]]. left. exists (Ret a). rewrite app_nil_r. split; [now left|now apply sim_ret].
  - destruct Ru as [(-> & -> & ->)|[]]. left. exists (Stop w). split; [now left|apply sim_stop].
  - destruct Ru as [(-> & -> & ->)|(s0 & r & s1 & tr' & I & St & -> & Ru)].
    { left. exists (Call c k). rewrite app_nil_r. split; [now left|now apply sim_call]. }
    inversion F as [|? ? F1 F2]. subst. destruct (IH r F1 _ _ _ _ Ru F2) as [(p' & Rq & Sq)|(before & after & message & h & n & s2 & q1 & -> & E & Rp & Rq)].
    + left. exists p'. split; [|now rewrite <- app_assoc in Sq]. right. exists s0, r, s1, tr'. auto.
    + right. exists (Ev c r :: before), after, message, h, n, s2, q1. splits; auto; right; exists s0, r, s1, before; auto.
  - right. exists [], tr, message, h, n, s, q. splits; auto; [now left|destruct q; now left].
Qed.

End executions.
