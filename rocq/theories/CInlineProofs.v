(** * Inline mode in memory *)

From Verif Require Import Base BaseFacts Stdio StdioFacts CleanString CleanUtf8 Filter Filelist Prog ProgFacts Warnings WarningsProofs File Inline Mem MemFacts MemSpec
  CFilters CFiltersProofs CFile CSim MainSpec Startup Main MainProofs CFileProofs CArgumentsProofs.

Local Open Scope nat_scope.

(** ** The buffer *)

Section buffer.

Variables h k : heap.

Let base (off : nat) : ptr := mkPtr (length h) off.
Let heap_of (cells : list cell) : heap := h ++ Some cells :: k.

Lemma buffer_block cells : nth_error (heap_of cells) (length h) = Some (Some cells).
Proof. unfold heap_of. rewrite nth_error_app2, Nat.sub_diag; [reflexivity|lia]. Qed.

Lemma buffer_set cells cells' : set_block (heap_of cells) (length h) (Some cells') = heap_of cells'.
Proof. unfold heap_of. replace (length h) with (length h + 0) by lia. now rewrite set_app_r. Qed.

Lemma load_at (cells : list cell) off c : nth_error cells off = Some (Some c) -> load (base off) (heap_of cells) = done (c, heap_of cells).
Proof. intros E. unfold load, base. cbn [p_block p_off]. now rewrite buffer_block, E. Qed.

Lemma store_at (cells : list cell) off c : off < length cells -> store (base off) c (heap_of cells) = done (tt, heap_of (set_cell cells off c)).
Proof.
  intros L. unfold store, base. cbn [p_block p_off]. rewrite buffer_block. apply Nat.ltb_lt in L. now rewrite L, buffer_set.
Qed.

Definition string_cells (t : str) (cells : list cell) : Prop :=
  exists rest, cells = map Some t ++ Some NUL :: rest /\ nonul t /\ length cells = INLINE_BUF_SIZE.

Lemma load_in t cells before c after : string_cells t cells -> t = before ++ c :: after -> load (base (length before)) (heap_of cells) = done (c, heap_of cells).
Proof.
  intros (rest & -> & _) ->. apply load_at. rewrite nth_error_app1 by (rewrite map_length, app_length; cbn; lia).
  rewrite nth_error_map, nth_error_app2, Nat.sub_diag; [reflexivity|lia].
Qed.

Lemma load_end t cells : string_cells t cells -> load (base (length t)) (heap_of cells) = done (NUL, heap_of cells).
Proof.
  intros (rest & -> & _). apply load_at. rewrite nth_error_app2; rewrite map_length; [|lia]. now rewrite Nat.sub_diag.
Qed.

Lemma string_cstr t cells : string_cells t cells -> cstr_at (heap_of cells) (base 0) t.
Proof. intros (rest & -> & N & _). now apply cstr_string. Qed.

(** ** src/file.c:301-312 *)

Lemma seek_back_ok t cells : string_cells t cells -> forall before after fuel, t = rev before ++ after -> before <> [] -> length after <= 5 -> length before < fuel ->
  rounds fuel (fun seek =>
               let* c := load seek in
               if is_utf_8_cont c && (p_off (base (length t)) - p_off seek <? UTF_8_MAX_LENGTH) then
                 let* seek := c_back seek in mret (inl seek)
               else mret (inr seek)) (base (length before - 1)) (heap_of cells) =
  match seek_back (5 - length after) before after with
  | Ok (c, after') => done (base (length t - 1 - length after'), heap_of cells)
  | UB w => quietly (UB w)
  | Exit n => quietly (Exit n)
  end /\
  forall c after', seek_back (5 - length after) before after = Ok (c, after') -> exists b, t = b ++ c :: after'.
Proof.
  intros Hs. induction before as [|c before IH]; intros after fuel Et Ne La F; [easy|]. destruct fuel as [|fuel]; [cbn in F; lia|].
  cbn [rev] in Et. rewrite <- app_assoc in Et. cbn [app] in Et.
  assert (Ld : load (base (length (c :: before) - 1)) (heap_of cells) = done (c, heap_of cells)).
  { cbn [length]. replace (S (length before) - 1) with (length (rev before)) by (rewrite rev_length; lia). exact (load_in _ _ _ _ _ Hs Et). }
  rewrite rounds_S, mbind_assoc, (mbind_done _ _ _ _ _ Ld). clear Ld. cbn [p_off base].
  assert (Lt : length t = length before + S (length after)) by (rewrite Et, app_length, rev_length; reflexivity).
  assert (X : length t - (length (c :: before) - 1) <? UTF_8_MAX_LENGTH = (length after <? 5)).
  { unfold UTF_8_MAX_LENGTH. cbn [length]. destruct (Nat.ltb_spec (length t - (S (length before) - 1)) 6), (Nat.ltb_spec (length after) 5); try reflexivity; lia. }
  rewrite X. destruct (is_utf_8_cont c) eqn:Ec; cbn [andb].
  - destruct (Nat.ltb_spec (length after) 5) as [L5|L5].
    + replace (5 - length after) with (S (5 - length (c :: after))) by (cbn [length]; lia). rewrite mbind_assoc. cbn [seek_back]. rewrite Ec.
      destruct before as [|d before].
      * assert (Y : seek_back (5 - length (c :: after)) [] (c :: after) = UB BufferUnderread) by now destruct (5 - length (c :: after)).
        rewrite Y. split; [reflexivity|discriminate].
      * rewrite (mbind_done _ _ _ (base (length (d :: before) - 1)) (heap_of cells)).
        2:{ unfold c_back, base. cbn [p_off length]. replace (S (S (length before)) - 1) with (S (length before)) by lia. cbn [p_block]. unfold mret.
            do 3 f_equal. lia. }
        rewrite mbind_ret. apply IH; [now rewrite Et|discriminate|cbn [length]; lia|cbn [length] in F |- *; lia].
    + replace (5 - length after) with 0 by lia. cbn [seek_back]. rewrite Ec, mbind_ret. split.
      * unfold mret. do 3 f_equal. cbn [length]. lia.
      * intros ? ? [= <- <-]. eauto.
  - assert (Y : seek_back (5 - length after) (c :: before) after = Ok (c, after)) by (destruct (5 - length after); cbn [seek_back]; now rewrite Ec).
    rewrite Y, mbind_ret. split.
    + unfold mret. do 3 f_equal. cbn [length]. lia.
    + intros ? ? [= <- <-]. eauto.
Qed.

(** ** src/file.c:322-329 *)

Lemma seek_ahead_ok t cells : string_cells t cells -> forall after r fuel before, t = before ++ after -> before <> [] -> length after < fuel ->
  let (r', after') := seek_ahead r after in
  rounds fuel (fun '(seek, remaining) =>
                 let seek := plus seek 1 in
                 let remaining := (remaining - 1)%Z in
                 if (0 <? remaining)%Z then
                   let* c := load seek in
                   if is_utf_8_cont c then mret (inl (seek, remaining)) else mret (inr (seek, remaining))
                 else mret (inr (seek, remaining))) (base (length before - 1), Z.of_nat (S r)) (heap_of cells) =
  done ((base (length t - length after'), Z.of_nat r'), heap_of cells) /\ exists b, t = b ++ after'.
Proof.
  intros Hs. induction after as [|c after IH]; intros r fuel before Et Ne F; (destruct fuel as [|fuel]; [cbn in F; lia|]); cbn [length] in F;
    rewrite rounds_S; cbv zeta; unfold plus at 1 2 3 4; cbn [p_off p_block base];
    (replace (length before - 1 + 1) with (length before) by (destruct before; [easy|cbn; lia]));
    (replace (Z.of_nat (S r) - 1)%Z with (Z.of_nat r) by lia); fold (base (length before)).
  - destruct r as [|r]; cbn [seek_ahead].
    + change (0 <? Z.of_nat 0)%Z with false. cbv iota. rewrite mbind_ret. split; [|eauto]. unfold mret. do 3 f_equal. rewrite Et, app_nil_r. cbn. f_equal. lia.
    + replace (0 <? Z.of_nat (S r))%Z with true by (symmetry; apply Z.ltb_lt; lia). rewrite app_nil_r in Et. subst before.
      rewrite mbind_assoc, (mbind_done _ _ _ _ _ (load_end _ _ Hs)). change (is_utf_8_cont NUL) with false. cbv iota. rewrite mbind_ret. split; [|exists t; now rewrite app_nil_r].
      unfold mret. do 3 f_equal. cbn [length]. f_equal. lia.
  - destruct r as [|r]; cbn [seek_ahead].
    + change (0 <? Z.of_nat 0)%Z with false. cbv iota. rewrite mbind_ret. split; [|eauto]. unfold mret. do 3 f_equal. rewrite Et, app_length. f_equal. cbn [length]. lia.
    + replace (0 <? Z.of_nat (S r))%Z with true by (symmetry; apply Z.ltb_lt; lia).
      rewrite mbind_assoc, (mbind_done _ _ _ _ _ (load_in _ _ _ _ _ Hs Et)). destruct (is_utf_8_cont c) eqn:Ec.
      * cbv iota. rewrite mbind_ret. specialize (IH r fuel (before ++ [c])). rewrite app_length in IH. cbn [length] in IH.
        replace (length before + 1 - 1) with (length before) in IH by lia. apply IH; [now rewrite <- app_assoc|now destruct before|lia].
      * cbv iota. rewrite mbind_ret. split; [|eauto]. unfold mret. do 3 f_equal. rewrite Et, app_length. f_equal. cbn [length]. lia.
Qed.

Ltac clia := unfold cell, str in *; lia.

(** ** src/file.c:341-373 *)

Definition warning : str := bs "detox: warning: stream push back failed" ++ [newline].
Definition warned (w : bool) : list (stream * str) := if w then [(Stderr, warning)] else [].

Lemma cont_not_nul c : is_utf_8_cont c = true -> c <> NUL.
Proof. now intros E ->. Qed.

Lemma nonul_snoc t c : nonul t -> c <> NUL -> nonul (t ++ [c]).
Proof. intros N Nc I. apply in_app_iff in I. destruct I as [I|[I|[]]]; auto. Qed.

Lemma set_cell_at (t : str) (x : list cell) c : x <> [] -> exists rest : list cell, set_cell (map Some t ++ x) (length t) c = map Some t ++ Some c :: rest /\ length rest + 1 = length x.
Proof.
  intros N. destruct x as [|y x]; [easy|]. exists x. split; [|cbn; clia]. replace (length t) with (length (map (@Some byte) t) + 0) by (rewrite map_length; clia).
  now rewrite set_cell_app.
Qed.

Lemma store_string (t : str) (x : list cell) c : x <> [] -> exists rest : list cell,
  store (base (length t)) c (heap_of (map Some t ++ x)) = done (tt, heap_of (map Some t ++ Some c :: rest)) /\ length rest + 1 = length x.
Proof.
  intros N. destruct (set_cell_at t x c N) as (rest & E & L). exists rest. split; [|exact L]. rewrite store_at; [now rewrite E|].
  rewrite app_length, map_length. clia.
Qed.

Lemma poke_ok (t : list byte) : length t < INLINE_BUF_SIZE -> poke t = Ok tt.
Proof. intros L. unfold poke. apply Nat.ltb_lt in L. now rewrite L. Qed.

Lemma bring_in_ok schar : forall remaining t (x : list cell) input, nonul t -> length t + length x = INLINE_BUF_SIZE -> length t + remaining + 1 < INLINE_BUF_SIZE ->
  exists t' input' w cells, bring_in schar remaining t input = Ok (t', input', w) /\ string_cells t' cells /\
    c_bring_in schar (base (length t)) (Z.of_nat remaining) input (heap_of (map Some t ++ x)) = (warned w, Ok (input', heap_of cells)).
Proof.
  intros remaining t x input N L R. unfold c_bring_in, while. unfold mbind at 1.
  assert (F : remaining < S (heap_size (heap_of (map Some t ++ x)))).
  { unfold heap_of. rewrite size_app, size_cons. cbn [block_size]. rewrite app_length, map_length. clia. }
  revert F. generalize (S (heap_size (heap_of (map Some t ++ x)))) as fuel.
  set (body := fun '(seek, remaining, input) => _).
  assert (Body : forall seek remaining input, body (seek, remaining, input) =
    if (0 <? remaining)%Z then
               match input with
               | [] => mret (inr (seek, input))
               | c :: rest =>
                 let* _ := store seek c in
                 if negb (is_utf_8_cont c) then
                   if (schar && beq c xff)%bool then
                     let* _ := outside (complain (bs "detox: warning: stream push back failed")) in
                     mret (inr (plus seek 1, rest))
                   else mret (inr (seek, input))
                 else mret (inl (plus seek 1, (remaining - 1)%Z, rest))
               end
             else mret (inr (seek, input))) by reflexivity.
  clearbody body. revert t x input N L R.
  induction remaining as [|remaining IH]; intros t x input N L R fuel F; (destruct fuel as [|fuel]; [clia|]).
  all: assert (Nx : x <> []) by (destruct x; [cbn in L; clia|discriminate]).
  all: assert (Poke : poke t = Ok tt) by (apply poke_ok; clia).
  - cbn [bring_in]. rewrite Poke. cbn [bind]. destruct (store_string t x NUL Nx) as (rest & E & Lr).
    exists t, input, false, (map Some t ++ Some NUL :: rest). splits; [reflexivity| |].
    + exists rest. splits; auto. rewrite app_length, map_length. cbn [length]. clia.
    + rewrite rounds_S, Body. change (0 <? Z.of_nat 0)%Z with false. cbv iota. rewrite mbind_ret. unfold mret at 1. rewrite tbind_done.
      rewrite (mbind_done _ _ _ _ _ E). reflexivity.
  - assert (Z : (0 <? Z.of_nat (S remaining))%Z = true) by (apply Z.ltb_lt; clia).
    destruct input as [|c input]; cbn [bring_in]; rewrite Poke; cbn [bind].
    { destruct (store_string t x NUL Nx) as (rest & E & Lr).
      exists t, [], false, (map Some t ++ Some NUL :: rest). splits; [reflexivity| |].
      + exists rest. splits; auto. rewrite app_length, map_length. cbn [length]. clia.
      + rewrite rounds_S, Body, Z. rewrite mbind_ret. unfold mret at 1. rewrite tbind_done.
        rewrite (mbind_done _ _ _ _ _ E). reflexivity. }
    destruct (store_string t x c Nx) as (rest & E & Lr).
    assert (Pl : plus (base (length t)) 1 = base (length (t ++ [c]))) by (unfold plus, base; cbn [p_block p_off]; rewrite app_length; reflexivity).
    assert (Ap : map Some t ++ Some c :: rest = map Some (t ++ [c]) ++ rest) by (rewrite map_app, <- app_assoc; reflexivity).
    destruct (is_utf_8_cont c) eqn:Ec; cbn [negb].
    + assert (L' : length (t ++ [c]) = S (length t)) by (rewrite app_length; cbn; clia).
      destruct (IH (t ++ [c]) rest input (nonul_snoc _ _ N (cont_not_nul _ Ec)) ltac:(clia) ltac:(clia) fuel ltac:(clia)) as (t' & i' & w & cells & E1 & E2 & E3).
      exists t', i', w, cells. splits; auto. rewrite <- E3. rewrite rounds_S, Body, Z. rewrite mbind_assoc, (mbind_done _ _ _ _ _ E).
      rewrite Ec. cbn [negb]. rewrite mbind_ret. rewrite Pl, Ap. replace (Z.of_nat (S remaining) - 1)%Z with (Z.of_nat remaining) by clia. reflexivity.
    + destruct (schar && beq c xff)%bool eqn:Ep.
      * assert (Nc : c <> NUL).
        { intros ->. apply andb_true_iff in Ep. destruct Ep as [_ Ep]. discriminate. }
        rewrite poke_ok by (rewrite app_length; cbn [length]; clia). cbn [bind].
        assert (Nr : rest <> []) by (destruct rest; [cbn in Lr; clia|discriminate]).
        destruct (store_string (t ++ [c]) rest NUL Nr) as (rest' & E' & Lr').
        exists (t ++ [c]), input, true, (map Some (t ++ [c]) ++ Some NUL :: rest'). splits; [reflexivity| |].
        -- exists rest'. splits; auto; [now apply nonul_snoc|]. rewrite app_length, map_length, app_length. cbn [length]. clia.
        -- rewrite rounds_S, Body, Z. rewrite mbind_assoc, (mbind_done _ _ _ _ _ E). rewrite Ec, Ep. cbn [negb].
           rewrite mbind_assoc, mbind_outside. rewrite tbind_assoc. unfold complain, say. cbn [tbind]. rewrite mbind_ret. unfold mret at 1. rewrite tbind_done.
           rewrite Pl, Ap. rewrite (mbind_done _ _ _ _ _ E'). reflexivity.
      * destruct (store_string t (Some c :: rest) NUL ltac:(discriminate)) as (rest' & E' & Lr').
        exists t, (c :: input), false, (map Some t ++ Some NUL :: rest'). splits; [reflexivity| |].
        -- exists rest'. splits; auto. rewrite app_length, map_length. cbn [length] in *. clia.
        -- rewrite rounds_S, Body, Z. rewrite mbind_assoc, (mbind_done _ _ _ _ _ E). rewrite Ec, Ep. cbn [negb].
           rewrite mbind_ret. unfold mret at 1. rewrite tbind_done.
           rewrite (mbind_done _ _ _ _ _ E'). reflexivity.
Qed.

(** ** src/file.c:282-380 *)

Lemma strchr_nul h0 p s : cstr_at h0 p s -> c_strchr p NUL h0 = done (Some (plus p (length s)), h0).
Proof.
  intros C. unfold c_strchr, while. assert (L : length s < S (heap_size h0)) by (apply cstr_size in C; lia). revert L.
  generalize (S (heap_size h0)) as fuel. revert p C. induction s as [|c s IH]; intros p C fuel L; (destruct fuel as [|fuel]; [lia|]); cbn [length] in *; rewrite rounds_S, mbind_assoc.
  - rewrite (mbind_done _ _ _ _ _ (cstr_nil _ _ C)). rewrite beq_refl. cbv iota. rewrite mbind_ret. unfold mret, plus. rewrite Nat.add_0_r. now destruct p.
  - destruct (cstr_cons _ _ _ _ C) as (E & C' & N). rewrite (mbind_done _ _ _ _ _ E). destruct (beq c NUL) eqn:X; [now apply beq_eq in X|]. cbv iota.
    rewrite mbind_ret. rewrite (IH _ C') by lia. replace (plus p (S (length s))) with (plus (plus p 1) (length s)) by (unfold plus; cbn; f_equal; lia). reflexivity.
Qed.

Lemma complete_ok schar t cells input : string_cells t cells -> length t <= 1007 ->
  match complete schar t input with
  | Ok (t', input', w) => exists cells', string_cells t' cells' /\ c_complete schar (base 0) input (heap_of cells) = (warned w, Ok (input', heap_of cells'))
  | UB w => c_complete schar (base 0) input (heap_of cells) = quietly (UB w)
  | Exit _ => False
  end.
Proof.
  intros Hs Lt. remember (c_complete schar (base 0) input (heap_of cells)) as X eqn:EX. unfold c_complete in EX.
  rewrite (mbind_done _ _ _ _ _ (strchr_nul _ _ _ (string_cstr _ _ Hs))) in EX.
  change (plus (base 0) (length t)) with (base (length t)) in EX. cbv iota in EX. unfold complete.
  destruct (rev t) as [|c0 rt] eqn:Er.
  { apply (f_equal (@rev byte)) in Er. rewrite rev_involutive in Er. cbn [rev] in Er. subst t. exact EX. }
  assert (Et : t = rev (c0 :: rt)) by (rewrite <- Er; now rewrite rev_involutive).
  assert (Ln : length t = S (length rt)) by (rewrite Et, rev_length; reflexivity).
  rewrite (mbind_done _ _ _ (base (length rt - 0)) (heap_of cells)) in EX.
  2:{ unfold c_back, base. rewrite Ln. cbn [p_off p_block length]. unfold mret. do 3 f_equal. f_equal. lia. }
  assert (Big : length t < S (heap_size (heap_of cells))) by (pose proof (cstr_size _ _ _ (string_cstr _ _ Hs)); lia).
  destruct (seek_back_ok t cells Hs (c0 :: rt) [] (S (heap_size (heap_of cells)))) as [B1 B2]; [now rewrite app_nil_r|discriminate|cbn; lia|cbn [length]; lia|].
  cbn [length Nat.sub] in B1, B2. change (UTF_8_MAX_LENGTH - 1) with 5.
  unfold mbind at 1 in EX. unfold while at 1 in EX. rewrite B1 in EX. clear B1.
  destruct (seek_back 5 (c0 :: rt) []) as [[c after]|w|n] eqn:Eb; cbn [bind]; [|exact EX|].
  2:{ exfalso. revert Eb. clear. generalize 5 as lim. generalize (@nil byte) as after. generalize (c0 :: rt) as before.
      intros before after lim. revert before after. induction lim as [|lim IH]; intros [|x before] after; cbn [seek_back]; try discriminate; destruct (is_utf_8_cont x); try discriminate; apply IH. }
  destruct (B2 c after eq_refl) as [b Ec]. clear B2. rewrite tbind_done in EX.
  assert (Lb : length t = length b + S (length after)) by (rewrite Ec, app_length; reflexivity).
  replace (length t - 1 - length after) with (length b) in EX by lia.
  rewrite (mbind_done _ _ _ _ _ (load_in _ _ _ _ _ Hs Ec)) in EX.
  assert (Same : X = mret input (heap_of cells) -> exists cells', string_cells t cells' /\ X = (warned false, Ok (input, heap_of cells'))) by (intros ->; exists cells; auto).
  destruct (is_utf_8_start c) eqn:St; [|exact (Same EX)]. cbv zeta in EX. destruct (get_utf_8_width c) as [width|] eqn:W.
  2:{ unfold mbind at 1 in EX. unfold while at 1 in EX. rewrite rounds_S in EX. change (0 <? -1 - 1)%Z with false in EX. cbv zeta iota in EX. rewrite mbind_ret in EX.
      unfold mret at 1 in EX. rewrite tbind_done in EX. exact (Same EX). }
  pose proof (width_pos _ _ W) as Wp.
  pose proof (seek_ahead_ok t cells Hs after (width - 1) (S (heap_size (heap_of cells))) (b ++ [c])) as A.
  rewrite <- app_assoc in A. specialize (A Ec ltac:(now destruct b) ltac:(lia)).
  rewrite app_length in A. cbn [length] in A. replace (length b + 1 - 1) with (length b) in A by lia. replace (S (width - 1)) with width in A by lia.
  destruct (seek_ahead (width - 1) after) as [r' after'] eqn:Ea. destruct A as [A1 [b' A2]].
  unfold mbind at 1 in EX. unfold while at 1 in EX. rewrite A1 in EX. clear A1. rewrite tbind_done in EX.
  destruct r' as [|r']; [exact (Same EX)|].
  replace (0 <? Z.of_nat (S r'))%Z with true in EX by (symmetry; apply Z.ltb_lt; lia).
  destruct after' as [|x after'].
  - cbn [length] in EX. rewrite Nat.sub_0_r in EX. rewrite (mbind_done _ _ _ _ _ (load_end _ _ Hs)), beq_refl in EX.
    destruct Hs as (rest & -> & N & Lc). rewrite app_length, map_length in Lc.
    assert (R6 : S r' <= 5).
    { assert (Ww : width <= 6) by (revert W; unfold get_utf_8_width; cbv zeta; repeat match goal with |- context [if ?b then _ else _] => destruct b end; intros [= <-]; lia).
      assert (Le : forall a r, fst (seek_ahead r a) <= r).
      { clear. induction a as [|x a IH]; intros [|r]; cbn [seek_ahead fst]; try lia. destruct (is_utf_8_cont x); cbn [fst]; [|lia]. specialize (IH r). lia. }
      specialize (Le after (width - 1)). rewrite Ea in Le. cbn [fst] in Le. lia. }
    destruct (bring_in_ok schar (S r') t (Some NUL :: rest) input N) as (t' & i' & w & cells' & E1 & E2 & E3); [exact Lc|unfold INLINE_BUF_SIZE; lia|].
    rewrite E1. exists cells'. rewrite EX. auto.
  - replace (length t - length (x :: after')) with (length b') in EX by (rewrite A2, app_length; lia).
    rewrite (mbind_done _ _ _ _ _ (load_in _ _ _ _ _ Hs A2)) in EX. destruct (beq x NUL) eqn:Ex; [|exact (Same EX)].
    exfalso. apply beq_eq in Ex. subst x. destruct Hs as (rest & _ & N & _). apply N. rewrite A2. apply in_app_iff. right. now left.
Qed.

(** ** src/file.c:278-393 *)

Lemma strrchr_newline_eq s : strrchr_newline s = option_map (fun '(before, _) => rev before) (strrchr s newline).
Proof.
  unfold strrchr. assert (G : forall s before found, option_map (fun '(b, _) => rev b) (strrchr_from newline before s found) =
     match strrchr_newline s with Some t => Some (rev before ++ t) | None => option_map (fun '(b, _) => rev b) found end).
  { clear s. induction s as [|c s IH]; intros before found; cbn [strrchr_from strrchr_newline]; [reflexivity|]. rewrite IH. cbn [rev].
    destruct (strrchr_newline s) as [t|]; [now rewrite <- app_assoc|]. destruct (beq c newline); cbn [option_map]; [now rewrite app_nil_r|reflexivity]. }
  rewrite G. cbn [rev app option_map]. now destruct (strrchr_newline s).
Qed.

Lemma cells_of_bytes (b : list byte) (x : list cell) : length b + 1 + length x = INLINE_BUF_SIZE -> string_cells (cstr b) (map Some (b ++ [NUL]) ++ x).
Proof.
  intros L. assert (G : exists rest, map Some (b ++ [NUL]) ++ x = map Some (cstr b) ++ Some NUL :: rest).
  { clear L. induction b as [|c b [rest IH]]; cbn [app map cstr]; [eauto|]. destruct (beq c NUL) eqn:E; [apply beq_eq in E; subst c; cbn [map app]; eauto|].
    cbn [map app] in *. rewrite IH. eauto. }
  destruct G as [rest E]. exists rest. splits; [exact E|apply nonul_cstr|]. rewrite app_length, map_length, app_length. cbn [length]. clia.
Qed.

Lemma read_piece_ok schar cells input : length cells = INLINE_BUF_SIZE ->
  match read_piece schar input with
  | Ok None => c_read_piece schar (base 0) input (heap_of cells) = done (None, heap_of cells)
  | Ok (Some p) => exists cells', string_cells (pc_text p) cells' /\
      c_read_piece schar (base 0) input (heap_of cells) = (warned (pc_warning p), Ok (Some (pc_newline p, pc_rest p), heap_of cells'))
  | UB w => c_read_piece schar (base 0) input (heap_of cells) = quietly (UB w)
  | Exit _ => False
  end.
Proof.
  intros Lc. remember (c_read_piece schar (base 0) input (heap_of cells)) as X eqn:EX. unfold c_read_piece, c_fgets in EX. unfold read_piece, fgets. destruct input as [|c0 input0]; [exact EX|]. set (input := c0 :: input0) in *.
  change (INLINE_BUF_SIZE - INLINE_BUF_PADDING - 1) with 1007 in *. destruct (fgets_bytes 1007 input) as [bytes rest] eqn:Eg.
  assert (Lb : length bytes <= 1007).
  { clear - Eg. clearbody input. revert Eg. generalize 1007 as room. intros room. revert input bytes rest. induction room as [|room IH]; intros [|c i] b r; cbn [fgets_bytes]; try (intros [= <- <-]; cbn; lia).
    destruct (beq c newline); [intros [= <- <-]; cbn; lia|]. destruct (fgets_bytes room i) as [p r'] eqn:E. intros [= <- <-]. cbn [length]. apply IH in E. lia. }
  replace (length bytes <? INLINE_BUF_SIZE) with true by (symmetry; apply Nat.ltb_lt; unfold INLINE_BUF_SIZE; lia). cbn [bind].
  set (t := cstr bytes) in *.
  assert (Wr : c_write (base 0) (bytes ++ [NUL]) (heap_of cells) = done (base (length (bytes ++ [NUL])), heap_of (map Some (bytes ++ [NUL]) ++ skipn (length (bytes ++ [NUL])) cells))).
  { unfold base. rewrite (write_over (bytes ++ [NUL]) (heap_of cells) (length h) 0 cells (buffer_block cells)).
    - rewrite buffer_set. cbn [firstn app Nat.add]. reflexivity.
    - rewrite app_length, Lc. unfold INLINE_BUF_SIZE. cbn [length]. lia. }
  rewrite mbind_assoc, (mbind_done _ _ _ _ _ Wr), mbind_ret in EX. clear Wr.
  set (cells1 := map Some (bytes ++ [NUL]) ++ _) in *.
  assert (Hs : string_cells t cells1).
  { unfold t, cells1. apply cells_of_bytes. rewrite skipn_length, Lc, app_length. cbn [length]. unfold INLINE_BUF_SIZE. lia. }
  clearbody cells1. assert (Lt : length t <= 1007) by (unfold t; pose proof (cstr_length bytes); lia).
  clearbody t.
  assert (End : forall t2 cells2 w rest2, string_cells t2 cells2 ->
     match (match strrchr_newline t2 with None => Ok (Some (mkPiece t2 false w rest2)) | Some text => Ok (Some (mkPiece text true w rest2)) end) with
     | Ok (Some p) => exists cells', string_cells (pc_text p) cells' /\ pc_warning p = w /\
         (let* hold := c_strrchr (base 0) newline in
          match hold with
          | None => mret (Some (false, rest2))
          | Some hold => let* _ := store hold NUL in mret (Some (true, rest2))
          end) (heap_of cells2) = done (Some (pc_newline p, pc_rest p), heap_of cells')
     | _ => False
     end).
  { intros t2 cells2 w rest2 H2. destruct (strrchr_ok newline _ _ _ (string_cstr _ _ H2) ltac:(discriminate)) as [E1 E2].
    rewrite strrchr_newline_eq. destruct (strrchr t2 newline) as [[before ext]|] eqn:Es; cbn [option_map] in *.
    - specialize (E2 before ext eq_refl). destruct H2 as (rest3 & -> & N2 & L2).
      assert (Sp : map Some t2 ++ Some NUL :: rest3 = map Some (rev before) ++ (map Some ext ++ Some NUL :: rest3)) by (rewrite E2, map_app, <- app_assoc; reflexivity).
      rewrite Sp in *. destruct (store_string (rev before) (map Some ext ++ Some NUL :: rest3) NUL ltac:(destruct ext; discriminate)) as (rest4 & E4 & L4).
      exists (map Some (rev before) ++ Some NUL :: rest4). cbn [pc_text pc_warning pc_newline pc_rest]. splits; auto.
      + exists rest4. splits; auto.
        * intros Y. apply N2. rewrite E2. apply in_app_iff. now left.
        * rewrite <- L2. rewrite !app_length. cbn [length]. rewrite app_length in L4. cbn [length] in L4. clia.
      + rewrite (mbind_done _ _ _ _ _ E1). rewrite rev_length in E4. change (plus (base 0) (length before)) with (base (length before)).
        rewrite (mbind_done _ _ _ _ _ E4). reflexivity.
    - exists cells2. cbn [pc_text pc_warning pc_newline pc_rest]. splits; auto. rewrite (mbind_done _ _ _ _ _ E1). reflexivity. }
  destruct (strrchr_ok newline _ _ _ (string_cstr _ _ Hs) ltac:(discriminate)) as [E1 _]. rewrite (mbind_done _ _ _ _ _ E1) in EX. clear E1.
  pose proof (strrchr_newline_eq t) as En. destruct (strrchr t newline) as [[before ext]|] eqn:Es; cbn [option_map] in En, EX.
  - specialize (End t cells1 false rest Hs). rewrite En in *. cbn [bind]. rewrite En. rewrite mbind_ret in EX.
    destruct End as (cells' & H' & Ew & E). exists cells'. split; [exact H'|]. rewrite EX, E. reflexivity.
  - rewrite En. pose proof (complete_ok schar t cells1 rest Hs Lt) as Co. destruct (complete schar t rest) as [[[t2 rest2] w]|w|n]; [| |contradiction].
    + destruct Co as (cells2 & H2 & E2). cbn [bind]. specialize (End t2 cells2 w rest2 H2). destruct (match strrchr_newline t2 with Some _ => _ | None => _ end) as [[p|]|w'|n]; try contradiction.
      destruct End as (cells' & H' & Ew & E). exists cells'. split; [exact H'|]. unfold mbind at 1 in EX. rewrite E2 in EX. cbn [tbind] in EX. rewrite EX, E, Ew. unfold done, quietly. now rewrite app_nil_r.
    + cbn [bind]. unfold mbind at 1 in EX. rewrite Co in EX. exact EX.
Qed.

End buffer.

(** ** src/file.c:242-430 and src/detox.c:114-126 *)

Section proofs.

Context {al : allocator}.
Hypothesis Lim : limited al.

Lemma read_app a b : read_in (a ++ b) = read_in a + read_in b.
Proof. unfold read_in. now rewrite filter_app, app_length. Qed.

Lemma dotted_app a b : dotted_in (a ++ b) = dotted_in a + dotted_in b.
Proof. unfold dotted_in. now rewrite filter_app, app_length. Qed.

Definition reads_nothing (c : call) : Prop := match c with ReadStream _ => False | _ => True end.

Lemma read_none more : Forall (fun e => match e with Ev c _ => reads_nothing c end) more -> read_in more = 0.
Proof.
  intros F. unfold read_in. induction F as [|[c r] more P F IH]; cbn [filter]; [reflexivity|]. destruct c; try contradiction; exact IH.
Qed.

Definition piece_done (tr0 : list event) (h k : heap) (tr : list event) (c : unit * heap) (r : unit) : Prop :=
  bounded (snd c) /\ exists cells k', snd c = h ++ Some cells :: k ++ k' /\ length cells = INLINE_BUF_SIZE /\
    read_in tr = read_in tr0 /\ live k' + dotted_in tr0 <= dotted_in tr.

Lemma string_size t cells : string_cells t cells -> length cells = INLINE_BUF_SIZE.
Proof. now intros (rest & _ & _ & L). Qed.

Lemma swap_cells (h k : heap) (cells cells' : list cell) : length cells = length cells' -> bounded (h ++ Some cells :: k) -> bounded (h ++ Some cells' :: k).
Proof. unfold bounded. rewrite !size_app, !size_cons. cbn [block_size]. intros ->. auto. Qed.

Lemma print_sim tr (h k h1 : heap) (cells : list cell) t o work cleaned_name :
  string_cells t cells -> cleaned o (h ++ Some cells :: k) t (work, h1) cleaned_name ->
  sim (piece_done tr h k) tr
    ((match work with
      | Some w =>
        let@ text := inside (c_read w) in
        let@ _ := cprint Stdout text in
        inside (free w)
      | None =>
        let@ text := inside (c_read (mkPtr (length h) 0)) in
        cprint Stdout text
      end) h1)
    (print Stdout (match cleaned_name with Some w => w | None => t end)).
Proof.
  intros Hs [Bd1 H]. pose proof (string_cstr h k t cells Hs) as Ct. cbv beta in Ct.
  destruct work as [work|], cleaned_name as [r|]; try contradiction.
  - destruct H as (H & _ & _). pose proof (hands_cstr _ _ _ _ _ H) as Cw. eapply sim_mem; [exact (read_ok _ _ _ Cw)|].
    apply sim_call. intros [] _. destruct (hands_free _ _ _ _ _ [] H) as (a & Ef & La & _ & Ls). rewrite !app_nil_r in Ef.
    cbn [pbind]. unfold inside. rewrite Ef. apply sim_ret.
    split; [cbn [snd]; revert Bd1; unfold bounded; lia|]. exists cells, a. cbn [snd]. splits.
    + now rewrite <- app_assoc.
    + exact (string_size _ _ Hs).
    + rewrite !read_app. cbn. lia.
    + rewrite !dotted_app, La. lia.
  - destruct H as ((a & -> & La) & _). eapply sim_mem; [exact (read_ok _ _ _ (cstr_old _ a _ _ Ct))|].
    apply sim_call. intros [] _. apply sim_ret. split; [exact Bd1|]. exists cells, a. cbn [snd]. splits.
    + now rewrite <- app_assoc.
    + exact (string_size _ _ Hs).
    + rewrite !read_app. cbn. lia.
    + rewrite !dotted_app, La. unfold dotted_in at 3. cbn [filter dots]. destruct (is_protected t); cbn; lia.
Qed.

Lemma loop_sim o : forall fuel tr (h k : heap) (cells : list cell) input, length cells = INLINE_BUF_SIZE -> bounded (h ++ Some cells :: k) ->
  sim (piece_done tr h k) tr (c_inline_loop fuel o (mkPtr (length h) 0) input (h ++ Some cells :: k)) (inline_loop fuel o input).
Proof.
  induction fuel as [|fuel IH]; intros tr h k cells input Lc Bd; cbn [c_inline_loop inline_loop]; [apply sim_stop|].
  pose proof (read_piece_ok h k (p_schar (o_platform o)) cells input Lc) as P. cbv beta zeta in P.
  unfold cbind at 1, inside at 1. destruct (read_piece (p_schar (o_platform o)) input) as [[p|]|w|n]; [| | |contradiction].
  - destruct P as (cells1 & Hs & E). rewrite E, talking_bind. cbn [fst snd lift pbind]. clear E.
    assert (Bd1 : bounded (h ++ Some cells1 :: k)) by (refine (swap_cells h k cells cells1 _ Bd); rewrite (string_size _ _ Hs); exact Lc).
    assert (Rest : forall tr1, read_in tr1 = read_in tr -> dotted_in tr <= dotted_in tr1 -> sim (piece_done tr h k) tr1
      ((let@ work := c_clean_copy (mkPtr (length h) 0) o in
        let@ _ :=
          (match work with
           | Some w => let@ text := inside (c_read w) in let@ _ := cprint Stdout text in inside (free w)
           | None => let@ text := inside (c_read (mkPtr (length h) 0)) in cprint Stdout text
           end) in
        let@ _ := (if pc_newline p then cprint Stdout [newline] else cret tt) in
        c_inline_loop fuel o (mkPtr (length h) 0) (pc_rest p)) (h ++ Some cells1 :: k))
      (let work := if is_protected (pc_text p) then None else Some (pc_text p) in
       let! cleaned := talking (sequence_run_says (o_platform o) (o_sequence_to_use o) work) in
       let! _ := print Stdout (match cleaned with Some w => w | None => pc_text p end) in
       let! _ := (if pc_newline p then print Stdout [newline] else Ret tt) in
       inline_loop fuel o (pc_rest p))).
    { intros tr1 R1 D1. cbv zeta.
      pose proof (string_cstr h k _ cells1 Hs) as Ct. cbv beta zeta in Ct.
      eapply sim_bind; [apply (sim_only reads_nothing _ tr1 _ _ (clean_copy_sim Lim tr1 _ _ _ o Ct Bd1)); apply only_talking, Forall_forall; intros ? _; exact I|].
      intros tr2 [work h1] r [H (more & -> & Fm)]. apply read_none in Fm.
      eapply sim_bind; [exact (print_sim (tr1 ++ more) h k h1 cells1 _ o work r Hs H)|].
      intros tr2 [[] h2] [] (Bd2 & cells2 & k2 & E2 & L2 & R2 & D2). cbn [snd] in E2, Bd2. subst h2. rewrite read_app in R2. rewrite dotted_app in D2.
      eapply sim_bind with (R := fun tr3 (c : unit * heap) (_ : unit) => snd c = h ++ Some cells2 :: k ++ k2 /\ read_in tr3 = read_in tr2 /\ dotted_in tr3 = dotted_in tr2).
      { destruct (pc_newline p); [|now apply sim_ret]. apply sim_call. intros [] _. apply sim_ret. cbn [snd]. rewrite read_app, dotted_app. cbn. splits; auto; lia. }
      intros tr3 [[] h3] [] (E3 & R3 & D3). cbn [snd] in E3. subst h3.
      eapply sim_weaken; [exact (IH tr3 h (k ++ k2) cells2 (pc_rest p) L2 Bd2)|].
      intros tr4 [[] h4] [] (Bd4 & cells4 & k4 & E4 & L4 & R4 & D4). cbn [snd] in E4, Bd4. subst h4. split; [exact Bd4|].
      exists cells4, (k2 ++ k4). cbn [snd]. rewrite live_app. splits; auto; try lia. now rewrite <- app_assoc. }
    destruct (pc_warning p); cbn [warned told].
    + apply sim_call. intros [] _. apply Rest; rewrite ?read_app, ?dotted_app; cbn; lia.
    + apply Rest; lia.
  - rewrite P. apply sim_ret. split; [exact Bd|]. exists cells, []. cbn [snd]. rewrite app_nil_r. splits; auto.
  - rewrite P. apply sim_stop.
Qed.

Definition inline_done (tr0 : list event) (h : heap) (tr : list event) (c : unit * heap) (r : unit) : Prop :=
  bounded (snd c) /\ exists a, snd c = h ++ a /\
    read_in tr <= read_in tr0 + live a /\ live a + read_in tr0 + dotted_in tr0 <= read_in tr + dotted_in tr.

Lemma parse_inline_sim tr (h : heap) p name o :
  match p, name with Some p, Some s => cstr_at h p s | None, None => True | _, _ => False end -> bounded h ->
  sim (inline_done tr h) tr (c_parse_inline p o h) (parse_inline name o).
Proof.
  intros C Bd. unfold c_parse_inline, parse_inline.
  assert (Go : sim (inline_done tr h) tr
    ((let@ contents := csys (ReadStream name) in
      match contents with
      | inr message => match name with Some f => cprint Stderr (f ++ bs ": " ++ message ++ [newline]) | None => cret tt end
      | inl bytes => let@ base := inside (malloc (N.of_nat INLINE_BUF_SIZE)) in c_inline_loop (S (length bytes)) o base bytes
      end) h)
    (let! contents := sys (ReadStream name) in
     match contents with
     | inr message => match name with Some f => print Stderr (f ++ bs ": " ++ message ++ [newline]) | None => Ret tt end
     | inl bytes => inline_loop (S (length bytes)) o bytes
     end)).
  { apply sim_sys. intros [bytes|message] _.
    - apply (sim_malloc _ Lim). intros Bd1. eapply sim_weaken; [apply (loop_sim o (S (length bytes)) _ h []); [|exact Bd1]; rewrite repeat_length; apply Nat2N.id|].
      intros tr1 [[] h1] [] (Bd2 & cells & k & E & L & R & D). cbn [snd] in *. subst h1. split; [exact Bd2|]. exists (Some cells :: k). split; [reflexivity|].
      rewrite live_cons. cbn [is_live]. rewrite read_app in R. rewrite dotted_app in D. cbn in R, D |- *. lia.
    - assert (Same : forall tr1, read_in tr1 = read_in tr -> dotted_in tr1 = dotted_in tr -> inline_done tr h tr1 (tt, h) tt).
      { intros tr1 R D. split; [exact Bd|]. exists []. cbn. rewrite app_nil_r. splits; auto; lia. }
      destruct name as [f|].
      + apply sim_call. intros [] _. apply sim_ret. apply Same; rewrite ?read_app, ?dotted_app; cbn; lia.
      + apply sim_ret. apply Same; rewrite ?read_app, ?dotted_app; cbn; lia. }
  destruct p as [p|], name as [f|]; try contradiction.
  - eapply sim_mem_in; [exact (read_ok _ _ _ C)|]. exact Go.
  - exact Go.
Qed.

Lemma inline_arguments_sim o : forall files ptrs tr (h : heap), Forall2 (cstr_at h) ptrs files -> bounded h ->
  sim (inline_done tr h) tr (c_inline_arguments o ptrs h) (inline_arguments o files).
Proof.
  induction files as [|f files IH]; intros ptrs tr h F Bd; inversion F as [|p f' ps fs Cp Fp]; subst; cbn [c_inline_arguments inline_arguments].
  - apply sim_ret. split; [exact Bd|]. exists []. cbn. rewrite app_nil_r. splits; auto; lia.
  - eapply sim_mem; [exact (read_ok _ _ _ Cp)|]. apply sim_sys. intros st _. set (tr1 := tr ++ _).
    assert (E1 : read_in tr1 = read_in tr /\ dotted_in tr1 = dotted_in tr) by (unfold tr1; rewrite read_app, dotted_app; cbn; lia). clearbody tr1.
    eapply sim_bind with (R := inline_done tr1 h).
    + assert (Said : forall text, sim (inline_done tr1 h) tr1 (cprint Stderr text h) (print Stderr text)).
      { intros text. apply sim_call. intros [] _. apply sim_ret. split; [exact Bd|]. exists []. cbn [snd]. rewrite app_nil_r, read_app, dotted_app. cbn. splits; auto; lia. }
      destruct st as [st|m]; [|apply Said]. destruct (isdir st); [apply Said|]. now apply parse_inline_sim.
    + intros tr2 [[] h2] [] (Bd2 & a & E2 & L1 & L2). cbn [snd] in *. subst h2.
      eapply sim_weaken; [exact (IH ps tr2 (h ++ a) (strings_old h a _ _ Fp) Bd2)|].
      intros tr3 [[] h3] [] (Bd3 & b & E3 & L3 & L4). cbn [snd] in *. subst h3. split; [exact Bd3|]. exists (a ++ b). cbn [snd]. rewrite live_app. splits; try lia. now rewrite app_assoc.
Qed.

End proofs.
