(** * Proofs about the generator of built-in tables in memory: escape_string *)

From Verif Require Import Base BaseFacts Stdio StdioFacts Table TableSpec TableProofs Prog ParseTable ParseTableSpec ParseTableProofs TableFileSpec TableFileProofs
  Options GenBuiltin GenSpec GenProofs CheckTable GenMain Warnings WarningsProofs Startup StartProofs3
  Mem MemSpec MemFacts CFiltersProofs Words WordsSpec WordsFacts CTable CTableProofs CCheck CGenerate.

Local Open Scope nat_scope.

Section generate.

Context {al : allocator}.

Ltac first_byte s H X :=
  destruct s as [|c s];
  [ rewrite mbind_assoc, (mbind_done _ _ _ _ _ (cstr_nil _ _ H)), beq_refl, mbind_ret
  | destruct (cstr_cons _ _ _ _ H) as (X & H' & N); rewrite mbind_assoc, (mbind_done _ _ _ _ _ X); clear X;
    destruct (beq c NUL) eqn:X; [now apply beq_eq in X|clear X] ].

Lemma two_rounds b cap (rec : ptr * ptr -> mem ptr) K p acc c d h : building h b cap acc ->
  (forall acc' h', h' = upd h b cap acc' -> building h' b cap acc' -> built h' b cap (K acc') (rec (p, mkPtr b (length acc')) h')) ->
  built h b cap (tbind (quietly (wr cap acc c)) (fun a => tbind (quietly (wr cap a d)) K))
    (mbind (mbind (store (mkPtr b (length acc)) c) (fun _ => mbind (store (plus (mkPtr b (length acc)) 1) d) (fun _ => mret (inl (p, plus (plus (mkPtr b (length acc)) 1) 1))))) (go rec) h).
Proof.
  intros Bu H. rewrite mbind_assoc.
  apply (built_store _ _ _ _ _ _ (mbind (mbind (store (plus (mkPtr b (length acc)) 1) d) (fun _ => mret (inl (p, plus (plus (mkPtr b (length acc)) 1) 1)))) (go rec)) Bu). intros h' E Bu'.
  rewrite plus_built. apply put_round; [exact Bu'|]. intros acc' h'' -> Bu''. apply H; [|exact Bu'']. subst h'. unfold upd. now rewrite set_set.
Qed.

Lemma escape_rounds b cap s p h fuel : cstr_at h p s -> p_block p <> b -> building h b cap [] -> length s < fuel ->
  built h b cap (quietly (escape_loop cap [] s)) (rounds fuel (fun '(input, work) =>
             let* c := load input in
             if beq c NUL then mret (inr work)
             else if beq c c_quote then
               let* _ := store work backslash in
               let* _ := store (plus work 1) c in
               mret (inl (plus input 1, plus (plus work 1) 1))
             else if beq c backslash then
               let* next := load (plus input 1) in
               let* alone :=
                 (if beq next "u" then mret true
                  else let* next := load (plus input 1) in mret (beq next "U")) in
               if alone : bool then
                 let* _ := store work c in
                 mret (inl (plus input 1, plus work 1))
               else
                 let* _ := store work backslash in
                 let* _ := store (plus work 1) c in
                 mret (inl (plus input 1, plus (plus work 1) 1))
             else
               let* _ := store work c in
               mret (inl (plus input 1, plus work 1))) (p, mkPtr b 0) h).
Proof.
  intros H P Bu L. change (mkPtr b 0) with (mkPtr b (@length byte [])).
  apply (built_rounds b cap _ (fun s acc => quietly (escape_loop cap acc s))); auto.
  clear. intros s rec p acc h H P Bu IH. first_byte s H X.
  - now apply built_done.
  - assert (Rec : forall acc' h'', h'' = upd h b cap acc' -> building h'' b cap acc' ->
              built h'' b cap (quietly (escape_loop cap acc' s)) (rec (plus p 1, mkPtr b (length acc')) h'')).
    { intros acc' h'' -> Bu'. apply IH; auto. now apply cstr_upd. }
    cbn [escape_loop]. destruct (beq c c_quote) eqn:C1.
    { rewrite quietly_do.
      apply (fun R => two_rounds b cap rec (fun a => quietly (escape_loop cap a s)) (plus p 1) acc backslash c h Bu R) in Rec.
      match goal with |- built _ _ _ (tbind ?m ?k) _ => replace (tbind m k) with (tbind m (fun a => tbind (quietly (wr cap a c)) (fun a => quietly (escape_loop cap a s)))) end; [exact Rec|].
      apply tbind_ext. intros a _. now rewrite quietly_do. }
    destruct (beq c backslash) eqn:C2.
    2: { rewrite quietly_do. now apply put_round. }
    set (next := match s with d :: _ => d | [] => NUL end).
    assert (Ln : load (plus p 1) h = done (next, h)).
    { destruct s as [|d s]; [exact (cstr_nil _ _ H')|]. destruct (cstr_cons _ _ _ _ H') as (X & _ & _). exact X. }
    rewrite mbind_assoc, (mbind_done _ _ _ _ _ Ln), mbind_assoc.
    assert (Al : (if beq next "u" then mret true else let* next := load (plus p 1) in mret (beq next "U")) h = done (beq next "u" || beq next "U", h)).
    { destruct (beq next "u"); [reflexivity|]. rewrite (mbind_done _ _ _ _ _ Ln). reflexivity. }
    rewrite (mbind_done _ _ _ _ _ Al). rewrite quietly_do.
    destruct (beq next "u"), (beq next "U"); cbn [orb negb andb].
    1-3: rewrite quietly_ok, quietly_do; now apply put_round.
    apply (fun R => two_rounds b cap rec (fun a => quietly (escape_loop cap a s)) (plus p 1) acc backslash c h Bu R) in Rec.
    match goal with |- built _ _ _ (tbind ?m ?k) _ => replace (tbind m k) with (tbind m (fun a => tbind (quietly (wr cap a c)) (fun a => quietly (escape_loop cap a s)))) end; [exact Rec|].
    apply tbind_ext. intros a _. now rewrite quietly_do.
Qed.

(** The escaped text is in a block of its own. *)
Theorem escape_in_memory s p x : cstr_at (s_heap s) p x -> (N.of_nat (length x) < 2 ^ 62)%N ->
  ends (fun h k => h = s_heap s /\ N.to_nat k = 2 * length x + 1)
       (fun q s' => q = mkPtr (length (s_heap s)) 0 /\
          exists rest, s' = grow s [Some (map Some (escaped x) ++ Some NUL :: rest)] /\ length (map Some (escaped x) ++ Some NUL :: rest) = 2 * length x + 1)
       (bytes (c_escape_string p) s).
Proof.
  intros C L. assert (Nx : nonul x) by exact (cstr_at_nonul _ _ _ C). unfold bytes, c_escape_string. rewrite (mbind_done _ _ _ _ _ (strlen_ok _ _ _ C)).
  unfold strlen. rewrite size_t_small by lia. set (cap := (N.of_nat (length x) * 2 + 1)%N).
  unfold mbind at 1, malloc. destruct (refusal_of (s_heap s) cap) as [message|] eqn:Er.
  { cbn. econstructor 2; [exact Er|]. split; [reflexivity|]. unfold cap. lia. }
  rewrite tbind_done. set (h := s_heap s) in *. unfold mbind at 1, while.
  pose proof (escape_length x) as Le.
  destruct (escape_rounds (length h) cap x p (h ++ [Some (repeat None (N.to_nat cap))]) (S (heap_size (h ++ [Some (repeat None (N.to_nat cap))])))) as (Eq & _).
  - now apply cstr_old.
  - pose proof (cstr_live _ _ _ C). unfold h in *. lia.
  - apply malloc_building.
  - apply (cstr_old _ [Some (repeat None (N.to_nat cap))]) in C. apply cstr_size in C. fold h in C. lia.
  - rewrite Eq. clear Eq. rewrite escape_loop_ok by (cbn [length]; unfold cap; lia). rewrite app_nil_r, quietly_ok, tbind_done.
    unfold upd. rewrite set_last. assert (Bu : building (h ++ [Some (filled cap (rev (escaped x)))]) (length h) cap (rev (escaped x))).
    { split; [apply nth_last|]. rewrite rev_length. unfold cap. lia. }
    rewrite (store_step _ _ _ _ _ (mret (mkPtr (length h) 0)) Bu).
    assert (Lw : (N.of_nat (length (rev (escaped x))) < cap)%N) by (rewrite rev_length; unfold cap; lia).
    rewrite wr_ok by lia. rewrite quietly_ok. rewrite set_last. unfold mret. rewrite tbind_done.
    assert (L' : length (NUL :: rev (escaped x)) <= N.to_nat cap) by (cbn [length]; lia).
    destruct (filled_end cap (rev (escaped x)) L') as (rest & F). rewrite rev_involutive, cstr_nonul in F by now apply escaped_nonul.
    constructor. split; [reflexivity|]. exists rest. split; [unfold grow; rewrite F; reflexivity|]. rewrite <- F, filled_length by exact L'. unfold cap. lia.
Qed.

End generate.
