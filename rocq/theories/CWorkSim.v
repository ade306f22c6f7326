(** * Programs in memory with structures against programs on lists *)

From Verif Require Import Base BaseFacts Stdio Prog ProgFacts Warnings Mem MemFacts MemSpec CFiltersProofs CFile CSim MainSpec MainProofs WarningsProofs Words WordsFacts CRunProofs CWork CWorkSpec.

Local Open Scope nat_scope.

Section sim.

Context {al : allocator}.

(** When there is too little memory, and when there may be anything. *)
Variable short : heap -> N -> Prop.
Variable over : list event -> Prop.

(** Like [sim]: the first program does the calls of the second and ends as it does, with results
    that are related by [R], unless it runs out of memory on the way, or [over] was the case. *)
Inductive wsim {A B} (R : list event -> A -> B -> Prop) : list event -> prog A -> prog B -> Prop :=
| wsim_ret tr a b : R tr a b -> wsim R tr (Ret a) (Ret b)
| wsim_stop tr w : wsim R tr (Stop w) (Stop w)
| wsim_call tr c k k' : (forall r, fair c r -> wsim R (tr ++ [Ev c r]) (k r) (k' r)) -> wsim R tr (Call c k) (Call c k')
| wsim_memory tr message h n q : refusal_of h n = Some message -> short h n -> wsim R tr (gives_up message) q
| wsim_over tr p q : over tr -> wsim R tr p q.

Lemma wsim_bind {A B A' B'} (R : list event -> A -> B -> Prop) (R' : list event -> A' -> B' -> Prop) tr p q f g :
  wsim R tr p q -> (forall tr' a b, R tr' a b -> wsim R' tr' (f a) (g b)) -> wsim R' tr (pbind p f) (pbind q g).
Proof.
  intros S K. induction S as [tr a b H|tr w|tr c k k' H IH|tr message h n q E Sh|tr p q O]; cbn [pbind].
  - now apply K.
  - apply wsim_stop.
  - apply wsim_call. intros r F. now apply IH.
  - exact (wsim_memory R' tr message h n _ E Sh).
  - now apply wsim_over.
Qed.

Lemma wsim_then {A B A'} (R : list event -> A -> B -> Prop) (R' : list event -> A' -> B -> Prop) tr p q f :
  wsim R tr p q -> (forall tr' a b, R tr' a b -> wsim R' tr' (f a) (Ret b)) -> wsim R' tr (pbind p f) q.
Proof.
  intros S K. induction S as [tr a b H|tr w|tr c k k' H IH|tr message h n q E Sh|tr p q O]; cbn [pbind].
  - now apply K.
  - apply wsim_stop.
  - apply wsim_call. intros r F. now apply IH.
  - exact (wsim_memory R' tr message h n _ E Sh).
  - now apply wsim_over.
Qed.

Lemma wsim_weaken {A B} (R R' : list event -> A -> B -> Prop) tr p q :
  wsim R tr p q -> (forall tr' a b, R tr' a b -> R' tr' a b) -> wsim R' tr p q.
Proof.
  intros S K. induction S as [tr a b H|tr w|tr c k k' H IH|tr message h n q E Sh|tr p q O].
  - apply wsim_ret. now apply K.
  - apply wsim_stop.
  - apply wsim_call. intros r F. now apply IH.
  - exact (wsim_memory R' tr message h n _ E Sh).
  - now apply wsim_over.
Qed.

(** ... and the calls are those of the second. *)
Lemma wsim_only {A B} (P : call -> Prop) (R : list event -> A -> B -> Prop) tr p q : wsim R tr p q -> only P q ->
  wsim (fun tr' a b => R tr' a b /\ exists more, tr' = tr ++ more /\ Forall (fun e => match e with Ev c _ => P c end) more) tr p q.
Proof.
  intros S. induction S as [tr a b H|tr w|tr c k k' H IH|tr message h n q E Sh|tr p q Ov]; intros O.
  - apply wsim_ret. split; [exact H|]. exists []. now rewrite app_nil_r.
  - apply wsim_stop.
  - apply wsim_call. intros r F. destruct O as [Pc O]. eapply wsim_weaken; [exact (IH r F (O r))|].
    intros tr' a b [Hr (more & -> & Fm)]. split; [exact Hr|]. exists (Ev c r :: more). rewrite <- app_assoc. split; [reflexivity|]. now constructor.
  - exact (wsim_memory _ tr message h n _ E Sh).
  - now apply wsim_over.
Qed.

Context {A B : Type} (R : list event -> A * store_t -> B -> Prop).

Lemma wsim_inner {C} tr (m : wmem C) (k : C -> sprog A) s c s' q :
  m s = done (c, s') -> wsim R tr (k c s') q -> wsim R tr (sbind (inner m) k s) q.
Proof. intros E S. unfold sbind, inner. rewrite E. exact S. Qed.

Lemma wsim_mem {C} tr (m : mem C) (k : C -> sprog A) h ws c h' q :
  m h = done (c, h') -> wsim R tr (k c (mkStore h' ws)) q -> wsim R tr (sbind (heapwise m) k (mkStore h ws)) q.
Proof. intros E S. eapply wsim_inner; [|exact S]. exact (bytes_done m (mkStore h ws) _ _ E). Qed.

Lemma wsim_mem_in {C D} tr (m : mem C) (k : C -> sprog D) (j : D -> sprog A) h ws c h' q :
  m h = done (c, h') -> wsim R tr (sbind (k c) j (mkStore h' ws)) q -> wsim R tr (sbind (sbind (heapwise m) k) j (mkStore h ws)) q.
Proof. intros E S. unfold sbind at 1, sbind at 1, heapwise, inner. rewrite (bytes_done m (mkStore h ws) _ _ E). exact S. Qed.

Lemma wsim_sys tr c (k : answer c -> sprog A) k' s :
  (forall r, fair c r -> wsim R (tr ++ [Ev c r]) (k r s) (k' r)) -> wsim R tr (sbind (ssys c) k s) (let! r := sys c in k' r).
Proof. intros S. apply wsim_call. exact S. Qed.

Lemma wsim_told_both tr texts (p : prog (A * store_t)) (q : prog B) :
  (wsim R (tr ++ map heard texts) p q) -> wsim R tr (told texts p) (told texts q).
Proof.
  revert tr. induction texts as [|[out text] texts IH]; intros tr S; cbn [told map] in *.
  - now rewrite app_nil_r in S.
  - apply wsim_call. intros [] _. apply IH. now rewrite <- app_assoc.
Qed.

Lemma lockstep_gave_up {C D} Q (w : talk (C * store_t)) (c : talk (C * heap)) (m : talk D) (h : heap) : lockstep Q w c -> gave_up h c m -> gave_up h w m.
Proof.
  intros (E & S) (o & o' & message & more & n & Er & -> & Em). exists o, o', message, more, n. splits; auto.
  destruct w as [x [[a s]|u|y]]; cbn [fst snd] in *; try contradiction. now subst.
Qed.

Lemma wsim_gave_up {C D} tr (h0 : heap) (c : talk C) (m : talk D) (k : C -> prog (A * store_t)) k' :
  (forall more n, short (h0 ++ more) n) -> gave_up h0 c m -> wsim R tr (pbind (talking c) k) (pbind (talking m) k').
Proof.
  intros Sh (o & o' & message & h & n & E & -> & Em). rewrite !talking_bind, Em. cbn [fst snd]. rewrite !told_app. apply wsim_told_both.
  exact (wsim_memory R _ message _ n _ E (Sh h n)).
Qed.

Lemma wsim_gave_up_quiet {C D} tr (h0 : heap) (c : talk C) (m : talk D) (k : C -> prog (A * store_t)) q :
  (forall more n, short (h0 ++ more) n) -> fst m = [] -> gave_up h0 c m -> wsim R tr (pbind (talking c) k) q.
Proof.
  intros Sh Q (o & o' & message & h & n & E & -> & Em). rewrite Q in Em. symmetry in Em. apply app_eq_nil in Em. destruct Em as [-> ->].
  exact (wsim_memory R _ message _ n _ E (Sh h n)).
Qed.

Hypothesis Lim : limited al.

Lemma malloc_cases n (h : heap) :
  (bounded (h ++ [Some (repeat None (N.to_nat n))]) /\ malloc n h = done (mkPtr (length h) 0, h ++ [Some (repeat None (N.to_nat n))])) \/
  gave_up h (malloc n h) (@done unit tt).
Proof.
  rewrite <- (mbind_mret (malloc n)).
  apply (malloc_step Lim h n mret (@done unit tt) (fun c => (_ /\ c = _) \/ gave_up h c (@done unit tt))); [intros Bd; left; split; [exact Bd|reflexivity]|auto].
Qed.

Lemma strdup_cases p s (h : heap) : cstr_at h p s -> fits s ->
  (bounded (h ++ [Some (map Some s ++ [Some NUL])]) /\ c_strdup p h = done (mkPtr (length h) 0, h ++ [Some (map Some s ++ [Some NUL])])) \/
  gave_up h (c_strdup p h) (@done unit tt).
Proof.
  intros C F. rewrite <- (mbind_mret (c_strdup p)).
  apply (strdup_step Lim h p s mret (@done unit tt) (fun c => (_ /\ c = _) \/ gave_up h c (@done unit tt)) C F); [intros Bd; left; split; [exact Bd|reflexivity]|auto].
Qed.

Lemma wsim_refused {C} tr (m : mem C) (k : C -> sprog A) (h : heap) ws q :
  (forall more n, short (h ++ more) n) -> gave_up h (m h) (@done unit tt) -> wsim R tr (sbind (heapwise m) k (mkStore h ws)) q.
Proof.
  intros Sh G. unfold sbind, heapwise, inner. apply (wsim_gave_up_quiet tr h _ (@done unit tt)); auto.
  apply (lockstep_gave_up (fun _ _ => True) _ (m h)); [|exact G]. now apply lockstep_bytes.
Qed.

Lemma wsim_malloc tr n (k : ptr -> sprog A) (h : heap) ws q : (forall more n, short (h ++ more) n) ->
  (bounded (h ++ [Some (repeat None (N.to_nat n))]) -> wsim R tr (k (mkPtr (length h) 0) (mkStore (h ++ [Some (repeat None (N.to_nat n))]) ws)) q) ->
  wsim R tr (sbind (heapwise (malloc n)) k (mkStore h ws)) q.
Proof.
  intros Sh S. destruct (malloc_cases n h) as [(Bd & E)|G]; [|now apply wsim_refused]. eapply wsim_mem; [exact E|auto].
Qed.

Lemma wsim_strdup tr p s (k : ptr -> sprog A) (h : heap) ws q : cstr_at h p s -> fits s -> (forall more n, short (h ++ more) n) ->
  (bounded (h ++ [Some (map Some s ++ [Some NUL])]) -> wsim R tr (k (mkPtr (length h) 0) (mkStore (h ++ [Some (map Some s ++ [Some NUL])]) ws)) q) ->
  wsim R tr (sbind (heapwise (c_strdup p)) k (mkStore h ws)) q.
Proof.
  intros C F Sh S. destruct (strdup_cases p s h C F) as [(Bd & E)|G]; [|now apply wsim_refused]. eapply wsim_mem; [exact E|auto].
Qed.

(** A sequence is run. *)
Lemma wsim_sequence tr (h : heap) Q w c m (k : option ptr -> sprog A) k' : lockstep Q w c -> same h c m -> (forall more n, short (h ++ more) n) ->
  (forall tr' q r s2, snd m = Ok (Some r) -> tr' = tr ++ map heard (fst m) -> leaves h q r (s_heap s2) -> Q (Some q) s2 -> wsim R tr' (k (Some q) s2) (k' (Some r))) ->
  (forall tr' n s2, snd m = Ok None -> tr' = tr ++ map heard (fst m) -> s_heap s2 = h ++ repeat None n -> bounded (s_heap s2) -> Q None s2 -> wsim R tr' (k None s2) (k' None)) ->
  wsim R tr (pbind (talking w) (fun '(a, s') => k a s')) (pbind (talking m) k').
Proof.
  intros L [H|H] Sh K1 K2; [|apply (wsim_gave_up tr h); auto; now apply (lockstep_gave_up Q w c)]. rewrite !talking_bind. destruct H as [E H], L as [E' L].
  rewrite E', E. apply wsim_told_both.
  destruct (snd w) as [[a s2]|u'|x'], (snd c) as [[b h2]|u|x]; try contradiction.
  - destruct L as (-> & <- & Hq). destruct b as [q|], (snd m) as [[r|]|u'|x']; try contradiction.
    + now apply K1.
    + destruct H as [[n En] Bd]. now apply (K2 _ n).
  - subst u'. destruct (snd m) as [[r|]|u'|x']; try contradiction. subst u'. apply wsim_stop.
  - subst x'. destruct (snd m) as [[r|]|u'|x']; try contradiction. subst x'. apply wsim_stop.
Qed.

End sim.

Lemma wsim_mono {al : allocator} {A B} (short short' : heap -> N -> Prop) (over over' : list event -> Prop) (R : list event -> A -> B -> Prop) tr p q :
  wsim short over R tr p q -> (forall h n, short h n -> short' h n) -> (forall tr, over tr -> over' tr) -> wsim short' over' R tr p q.
Proof.
  intros S Ks Ko. induction S as [tr a b H|tr w|tr c k k' H IH|tr message h n q E Sh|tr p q O].
  - now apply wsim_ret.
  - apply wsim_stop.
  - apply wsim_call. auto.
  - apply (wsim_memory _ _ _ _ _ h n); auto.
  - apply wsim_over. auto.
Qed.

(** ** What that says about executions *)

Section executions.

Context {al : allocator} {A B S : Type} (short : heap -> N -> Prop) (over : list event -> Prop) (R : list event -> A -> B -> Prop).
Variable step : S -> forall c, answer c -> S -> Prop.
Variable interference : S -> S -> Prop.

Lemma wsim_runs tr0 p q : wsim short over R tr0 p q -> forall s tr s' p', runs step interference p s tr s' p' -> Forall fair_event tr ->
  (exists q', runs step interference q s tr s' q' /\ wsim short over R (tr0 ++ tr) p' q') \/ ends_short short step interference q s tr s' p' \/
  exists before after, tr = before ++ after /\ over (tr0 ++ before).
Proof.
  intros H. induction H as [tr0 a b H|tr0 w|tr0 c k k' H IH|tr0 message h n q E Sh|tr0 p q O]; intros s tr s' p' Ru F.
  - destruct Ru as [(-> & -> & ->)|[]]. left. exists (Ret b). rewrite app_nil_r. split; [now left|now apply wsim_ret].
  - destruct Ru as [(-> & -> & ->)|[]]. left. exists (Stop w). split; [now left|apply wsim_stop].
  - destruct Ru as [(-> & -> & ->)|(s0 & r & s1 & tr' & I & St & -> & Ru)].
    { left. exists (Call c k'). rewrite app_nil_r. split; [now left|now apply wsim_call]. }
    inversion F as [|? ? F1 F2]. subst. destruct (IH r F1 _ _ _ _ Ru F2) as [(q' & Rq & Sq)|[(before & message & h & n & s2 & s3 & q' & E & Sh & -> & -> & Rq & I2 & St2)|(before & after & -> & O)]].
    + left. exists q'. split; [|now rewrite <- app_assoc in Sq]. right. exists s0, r, s1, tr'. auto.
    + right. left. exists (Ev c r :: before), message, h, n, s2, s3, q'. splits; auto. right. exists s0, r, s1, before. auto.
    + right. right. exists (Ev c r :: before), after. split; [reflexivity|]. now rewrite <- app_assoc in O.
  - destruct Ru as [(-> & -> & ->)|(s0 & r & s1 & tr' & I & St & -> & Ru)].
    { left. exists q. split; [destruct q; now left|exact (wsim_memory _ _ R _ message h n q E Sh)]. }
    destruct Ru as [(-> & -> & ->)|[]]. right. left. destruct r. exists [], message, h, n, s, s0, q. splits; auto. destruct q; now left.
  - right. right. exists [], tr. rewrite app_nil_r. auto.
Qed.

End executions.
