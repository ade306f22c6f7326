(** * Proofs about tables in memory: making, copying and freeing them *)

From Verif Require Import Base BaseFacts Stdio Table TableSpec TableProofs Prog Warnings Mem MemSpec MemFacts Words WordsSpec WordsFacts CTable CTableProofs.

Local Open Scope nat_scope.

Definition fresh_counters : counters := mkCounters 0 0 0.

Lemma zero_rows n : Forall (stands_for (Some Zero)) (row_values (repeat empty_row n) (repeat None n)).
Proof. induction n; cbn; [constructor|]. constructor; [cbn; auto|]. constructor; [cbn; auto|exact IHn]. Qed.

Lemma block_list_none n : block_list (repeat None n) = [].
Proof. induction n; cbn; auto. Qed.

Lemma limited_at (al : allocator) h n : limited al -> refusal_of h n = None -> (N.of_nat (heap_size h) + n < limit)%N.
Proof. intros L E. now apply L. Qed.

(** A table is where it was as long as its blocks are. *)
Lemma string_in_same h h' q x : (forall p, q = Some p -> nth_error h' (p_block p) = nth_error h (p_block p)) -> string_in h q x -> string_in h' q x.
Proof.
  destruct q as [p|], x as [x|]; cbn; auto. intros E (O & cells & rest & N & Sk). split; [exact O|].
  exists cells, rest. rewrite E; auto.
Qed.

Lemma content_same s s' p vs : nth_error (s_heap s') (p_block p) = nth_error (s_heap s) (p_block p) -> s_words s' (p_block p) = s_words s (p_block p) ->
  content s p vs -> content s' p vs.
Proof. intros H W (O & F & X). split; [exact O|]. now rewrite W, H. Qed.

Lemma table_at_same s s' p t c own : (forall b, In b own -> nth_error (s_heap s') b = nth_error (s_heap s) b /\ s_words s' b = s_words s b) ->
  table_at s p t c own -> table_at s' p t c own.
Proof.
  intros E (rp & ds & df & CP & CR & F & D & -> & ND & R).
  assert (Sd : forall q, In (Some q) (df :: ds) -> nth_error (s_heap s') (p_block q) = nth_error (s_heap s) (p_block q)).
  { intros q I. apply E. right. right. apply in_block_list. eauto. }
  exists rp, ds, df. splits; auto.
  - apply (content_same s); [apply E; now left|apply E; now left|exact CP].
  - apply (content_same s); [apply E; right; now left|apply E; right; now left|exact CR].
  - assert (Sd' : forall q, In (Some q) ds -> nth_error (s_heap s') (p_block q) = nth_error (s_heap s) (p_block q)) by (intros q I; apply Sd; now right).
    clear - F Sd'. induction F; constructor.
    + eapply string_in_same; [|exact H]. intros p ->. apply Sd'. now left.
    + apply IHF. intros q I. apply Sd'. now right.
  - eapply string_in_same; [|exact D]. intros q ->. apply Sd. now left.
Qed.

Lemma table_at_seen s p t c own : table_at s p t c own -> table_seen s p t c own.
Proof.
  intros (rp & ds & df & CP & CR & F & D & Eo & _ & R). exists rp, ds, df. splits; auto.
  - clear - F. induction F as [|d r ds rows H F IH]; constructor; auto. destruct d, (r_data r); cbn in *; tauto.
  - destruct df, (t_default t); cbn in *; tauto.
Qed.

Lemma text_in_same h h' q x : (forall p, q = Some p -> nth_error h' (p_block p) = nth_error h (p_block p)) -> text_in h q x -> text_in h' q x.
Proof. destruct q as [p|], x as [x|]; cbn; auto. intros E (cells & rest & N & Sk). exists cells, rest. rewrite E; auto. Qed.

Lemma table_seen_same s s' p t c own : (forall b, In b own -> nth_error (s_heap s') b = nth_error (s_heap s) b /\ s_words s' b = s_words s b) ->
  table_seen s p t c own -> table_seen s' p t c own.
Proof.
  intros E (rp & ds & df & CP & CR & F & D & -> & R).
  assert (Sd : forall q, In (Some q) (df :: ds) -> nth_error (s_heap s') (p_block q) = nth_error (s_heap s) (p_block q)).
  { intros q I. apply E. right. right. apply in_block_list. eauto. }
  exists rp, ds, df. splits; auto.
  - apply (content_same s); [apply E; now left|apply E; now left|exact CP].
  - apply (content_same s); [apply E; right; now left|apply E; right; now left|exact CR].
  - assert (Sd' : forall q, In (Some q) ds -> nth_error (s_heap s') (p_block q) = nth_error (s_heap s) (p_block q)) by (intros q I; apply Sd; now right).
    clear - F Sd'. induction F; constructor.
    + eapply text_in_same; [|exact H]. intros p ->. apply Sd'. now left.
    + apply IHF. intros q I. apply Sd'. now right.
  - eapply text_in_same; [|exact D]. intros q ->. apply Sd. now left.
Qed.

Lemma seen_old s p t c own b : table_seen s p t c own -> In b own -> b < length (s_heap s).
Proof.
  intros (rp & ds & df & CP & CR & F & D & -> & R) [<-|[<-|I]]; [exact (content_live _ _ _ CP)|exact (content_live _ _ _ CR)|].
  assert (Tx : forall q x, text_in (s_heap s) (Some q) x -> p_block q < length (s_heap s)).
  { intros q [x|]; [|easy]. intros (cells & rest & N & _). apply nth_error_Some. congruence. }
  apply in_block_list in I as (q & [->|J] & ->); [exact (Tx _ _ D)|].
  apply In_nth_error in J as (i & J). pose proof (Forall2_len _ _ _ F) as L.
  destruct (nth_error (t_rows t) i) as [r|] eqn:Er.
  - destruct (Forall2_nth _ _ _ _ _ F Er) as (d & Nd & St). rewrite J in Nd. injection Nd as <-. exact (Tx _ _ St).
  - apply nth_error_None in Er. assert (i < length ds) by (apply nth_error_Some; congruence). lia.
Qed.

Section tables.

Context {al : allocator}.

Theorem init_in_memory s n : (n <= int_max)%Z ->
  ends (fun h k => h = s_heap s /\ k = 64%N \/ h = s_heap s ++ [blank 64] /\ k = (16 * N.of_nat (new_size n))%N)
       (fun p s' => p = mkPtr (length (s_heap s)) 0 /\
          table_at s' p (table_init n) fresh_counters [length (s_heap s); S (length (s_heap s))] /\
          s_heap s' = s_heap s ++ [blank 64; blank (16 * N.of_nat (new_size n))] /\
          same_but [length (s_heap s); S (length (s_heap s))] s s' /\ refusal_of (s_heap s) 64 = None)
       (c_table_init n s).
Proof.
  intros Le. rewrite table_init_eq. pose proof (new_size_pos n) as Pos. set (m := new_size n) in *.
  unfold c_table_init. replace (if (n <=? 0)%Z then 500%Z else n) with (Z.of_nat m).
  2: { unfold m, new_size. destruct (Z.leb_spec n 0); lia. }
  assert (Lm : (Z.of_nat m <= int_max)%Z). { unfold m, new_size. destruct (Z.leb_spec n 0); unfold int_max; unfold int_max in Le; lia. }
  rewrite size_nat by exact Lm. unfold size_t, sizeof_table_row_t.
  rewrite N.mod_small by (unfold int_max in Lm; lia). rewrite (N.mul_comm (N.of_nat m) 16).
  replace (row_members (16 * N.of_nat m)) with (2 * m).
  2: { unfold row_members, sizeof_table_row_t. rewrite (N.mul_comm 16), N.div_mul by lia. lia. }
  eapply ends_bind.
  { eapply ends_weaken; [apply (new_ok s sizeof_table_t T_members)| |intros a s' HQ; exact HQ]. intros h k (-> & ->). now left. }
  intros p s1 (-> & -> & Rf).
  assert (C1 := given_content s sizeof_table_t T_members ltac:(apply Nat.leb_le; reflexivity)).
  step (clear_ok _ _ _ T_members C1 ltac:(apply Nat.leb_le; reflexivity)).
  set (vs := [Num 0; Num 0; Num 0; Adr None; Adr None; Num 0; Num 0; Num 0; Num 0; Num 0; Num 0; Num 0]).
  assert (C2 := cleared_content _ _ _ vs C1 eq_refl ltac:(unfold vs; repeat (apply Forall_cons; [cbn; auto|]); apply Forall_nil)).
  rewrite repeat_length in C2.
  set (s2 := cleared (given s sizeof_table_t T_members) {| p_block := length (s_heap s); p_off := 0 |} T_members) in *.
  assert (H2 : s_heap s2 = s_heap s ++ [blank 64]) by reflexivity.
  assert (W2 : same_but [length (s_heap s); S (length (s_heap s))] s s2).
  { intros b Nb. cbn. rewrite !update_other; auto; intros ->; apply Nb; now left. }
  clearbody s2.
  eapply ends_bind.
  { eapply ends_weaken; [apply (new_ok s2 (16 * N.of_nat m) (2 * m))| |intros a s' HQ; exact HQ]. intros h k (-> & ->). right. auto. }
  intros rp s3 (-> & -> & _).
  assert (B2 : length (s_heap s2) = S (length (s_heap s))) by (rewrite H2, app_length; cbn; lia).
  rewrite B2. set (rp := mkPtr (S (length (s_heap s))) 0). set (p := mkPtr (length (s_heap s)) 0) in *.
  assert (R3 : content (given s2 (16 * N.of_nat m) (2 * m)) rp (repeat Any (2 * m))).
  { unfold rp. rewrite <- B2. apply given_content. lia. }
  assert (C3 := given_other s2 (16 * N.of_nat m) (2 * m) _ _ C2).
  set (s3 := given s2 (16 * N.of_nat m) (2 * m)) in *.
  assert (H3 : s_heap s3 = s_heap s ++ [blank 64; blank (16 * N.of_nat m)]) by (unfold s3; cbn [s_heap given]; rewrite H2, <- app_assoc; reflexivity).
  assert (W3 : same_but [length (s_heap s); S (length (s_heap s))] s s3).
  { intros b Nb. rewrite <- (W2 b Nb). apply update_other. rewrite B2. intros ->. apply Nb. right. now left. }
  clearbody s3.
  step (assign_ok s3 p vs T_rows (Ptr rp) C3 ltac:(apply Nat.leb_le; reflexivity)).
  assert (C4 := assigned_content s3 p vs 4 (Ptr rp) (Adr (Some rp)) C3 ltac:(right; eauto)). cbn in C4.
  assert (R4 := assigned_other s3 p 4 (Ptr rp) rp _ ltac:(cbn; lia) R3).
  set (s4 := assigned s3 p 4 (Ptr rp)) in *. change (assigned s3 p T_rows (Ptr rp)) with s4.
  assert (H4 : s_heap s4 = s_heap s3) by reflexivity.
  assert (W4 : same_but [length (s_heap s); S (length (s_heap s))] s s4).
  { intros b Nb. rewrite <- (W3 b Nb). apply update_other. intros ->. apply Nb. now left. }
  clearbody s4.
  step (rows_ok s4 p _ rp C4 eq_refl). step (clear_ok s4 rp _ (2 * m) R4 ltac:(rewrite repeat_length; lia)).
  assert (Lz : length (row_values (repeat empty_row m) (repeat None m)) = length (repeat Any (2 * m))).
  { rewrite row_values_length; rewrite !repeat_length; reflexivity. }
  assert (R5 := cleared_content s4 rp _ (row_values (repeat empty_row m) (repeat None m)) R4 Lz (zero_rows m)). rewrite repeat_length in R5.
  assert (C5 := cleared_other s4 rp (2 * m) p _ ltac:(cbn; lia) C4).
  set (s5 := cleared s4 rp (2 * m)) in *.
  assert (H5 : s_heap s5 = s_heap s3) by (rewrite <- H4; reflexivity).
  assert (W5 : same_but [length (s_heap s); S (length (s_heap s))] s s5).
  { intros b Nb. rewrite <- (W4 b Nb). apply update_other. intros ->. apply Nb. right. now left. }
  clearbody s5.
  step (assign_ok s5 p _ 0 (Int (Z.of_nat m)) C5 ltac:(cbn; lia) : assign p T_length _ s5 = _).
  assert (C6 := assigned_content s5 p _ 0 (Int (Z.of_nat m)) (Num (Z.of_nat m)) C5 ltac:(left; reflexivity)). cbn in C6.
  assert (R6 := assigned_other s5 p 0 (Int (Z.of_nat m)) rp _ ltac:(cbn; lia) R5).
  set (s6 := assigned s5 p 0 (Int (Z.of_nat m))) in *.
  step (assign_ok s6 p _ 9 (Int 1) C6 ltac:(cbn; lia) : assign p T_use_hash _ s6 = _).
  assert (C7 := assigned_content s6 p _ 9 (Int 1) (Num 1) C6 ltac:(left; reflexivity)). cbn in C7.
  assert (R7 := assigned_other s6 p 9 (Int 1) rp _ ltac:(cbn; lia) R6).
  constructor. splits; auto.
  - exists rp, (repeat None m), None. splits; auto.
    + unfold table_values. cbn. rewrite repeat_length. exact C7.
    + cbn [t_rows]. clear. induction m; cbn; constructor; cbn; auto.
    + cbn. reflexivity.
    + cbn. fold (block_list (repeat None m)). now rewrite block_list_none.
    + constructor; [|constructor]; cbn; lia || auto. constructor.
    + unfold in_range. cbn [t_rows t_used t_maxdata t_maxkey]. rewrite repeat_length. splits; try lia; auto.
      * apply Forall_forall. intros r I. apply repeat_spec in I. subst r. cbn. split; [lia|easy].
      * intros r d I. apply repeat_spec in I. subst r. discriminate.
  - cbn. now rewrite H5.
  - intros b Nb. rewrite <- (W5 b Nb). cbn. rewrite !update_other; auto; intros ->; apply Nb; now left.
Qed.

(** ** Copies *)

Lemma live_one data : live [string_block data] = 1.
Proof. reflexivity. Qed.

Definition copying (s0 s : store_t) (p : ptr) (t : table) (c : counters) (own : list nat) (q : ptr) (u : table) (room : nat) : Prop :=
  exists own' more, table_at s p t c own /\ table_at s q u fresh_counters own' /\ s_heap s = s_heap s0 ++ more /\
    (forall b, b < length (s_heap s0) -> s_words s b = s_words s0 b) /\ (forall b, In b own' -> length (s_heap s0) <= b) /\
    live more = length own' /\ t_overwrites u = t_overwrites t /\ heap_size more <= room.

(** What the loop of table_resize keeps. *)
Definition copying_seen (s0 s : store_t) (p : ptr) (t : table) (c : counters) (own : list nat) (q : ptr) (u : table) (room : nat) : Prop :=
  exists own' more, table_seen s p t c own /\ table_at s q u fresh_counters own' /\ s_heap s = s_heap s0 ++ more /\
    (forall b, b < length (s_heap s0) -> s_words s b = s_words s0 b) /\ (forall b, In b own' -> length (s_heap s0) <= b) /\
    live more = length own' /\ t_overwrites u = t_overwrites t /\ heap_size more <= room.

Lemma texts_cons r rows : texts_room (r :: rows) = text_room (r_data r) + texts_room rows.
Proof. reflexivity. Qed.

Lemma string_block_size x : heap_size [string_block x] = length x + 1.
Proof. unfold string_block. rewrite size_one, app_length, map_length. reflexivity. Qed.

Lemma put_new u k d : wf u -> table_get u k = None -> t_overwrites (fst (table_put u k d)) = t_overwrites u.
Proof.
  intros W G. destruct (table_put_cases u k d W) as [(-> & _)|(Kz & U & _)]; [reflexivity|].
  destruct (table_put_accept u k d W Kz U) as (off & -> & E). destruct (put_offset_spec u k W Kz U) as (off' & E' & L & _).
  rewrite E in E'. injection E' as <-. cbn. apply (proj1 (table_get_none_iff u k W Kz)) with (i := off) in G; [|exact L].
  now apply N.eqb_neq in G as ->.
Qed.

Lemma copy_rounds s0 p t c own q :
  (forall b, In b own -> b < length (s_heap s0)) -> wf t -> (Z.of_nat (t_overwrites t) < int_max)%Z ->
  forall n fuel i s u room, length (t_rows t) - i = n -> i <= length (t_rows t) -> n < fuel ->
  copying_seen s0 s p t c own q u room -> wf u ->
  (forall j, i <= j -> j < length (t_rows t) -> occ (t_rows t) j -> table_get u (r_key (row_at (t_rows t) j)) = None) ->
  ends (fun h k => exists more, h = s_heap s0 ++ more /\ heap_size more + N.to_nat k <= room + texts_room (skipn i (t_rows t)))
       (fun (_ : unit) s' => copying_seen s0 s' p t c own q (put_rows u (skipn i (t_rows t))) (room + texts_room (skipn i (t_rows t))))
       (wrounds fuel (fun i =>
                let$ length := int_at p T_length in
                if (i <? length)%Z then
                  let$ rows := c_rows p in
                  let$ k := c_row_key rows i in
                  let$ _ :=
                    (if (0 <? k)%N then
                       let$ data := c_row_data rows i in
                       match data with
                       | Some data => let$ _ := c_table_put (Some q) k data in wret tt
                       | None => wret tt
                       end
                     else wret tt) in
                  wret (inl (i + 1)%Z)
                else wret (inr tt)) (Z.of_nat i) s).
Proof.
  intros Oold Wt Ow. induction n as [|n IH]; intros fuel i s u room En Le Lt Cp Wu New; (destruct fuel as [|fuel]; [lia|]); cbn [wrounds];
    pose proof Cp as (own' & more & Tp & Tq & Hs & Ws & Onew & Lv & Ou & Sz); pose proof Tp as (rp & ds & df & CP & CR & F & D & Eo & (Pos & Lm & Us & Md & Mk & K & Mx));
    rewrite wbind_assoc; step (int_at_ok _ _ _ 0 _ CP eq_refl : int_at p T_length s = _); rewrite of_nat_ltb.
  - replace (i <? length (t_rows t)) with false by (symmetry; apply Nat.ltb_ge; lia). rewrite wbind_ret.
    rewrite skipn_all2 by lia. cbn [put_rows]. change (texts_room []) with 0. rewrite Nat.add_0_r. constructor. exact Cp.
  - assert (I : i < length (t_rows t)) by lia. pose proof I as I'. apply Nat.ltb_lt in I' as ->.
    pose proof (Forall2_len _ _ _ F) as L.
    rewrite wbind_assoc. step (rows_ok s p _ rp CP eq_refl). rewrite wbind_assoc. step (row_key_ok s rp (t_rows t) ds CR L K i I).
    destruct (Forall2_nth _ _ _ _ _ F (nth_row _ _ I)) as (dq & Nd & St).
    destruct (skipn i (t_rows t)) as [|r rest] eqn:Sk.
    { apply (f_equal (@length _)) in Sk. rewrite skipn_length in Sk. cbn in Sk. lia. }
    destruct (skipn_nth _ _ _ _ Sk) as (Nr & Rest). rewrite (nth_row _ _ I) in Nr. injection Nr as Nr. rewrite Nr in *.
    assert (Ir : In r (t_rows t)) by (rewrite <- Nr; unfold row_at; now apply nth_In).
    rewrite Forall_forall in K. pose proof (K r Ir) as (Kr & Kd).
    assert (Next : forall s' u' room', copying_seen s0 s' p t c own q u' room' -> wf u' -> room' + texts_room rest = room + texts_room (r :: rest) ->
      (forall j, i + 1 <= j -> j < length (t_rows t) -> occ (t_rows t) j -> table_get u' (r_key (row_at (t_rows t) j)) = None) ->
      put_rows u (r :: rest) = put_rows u' rest ->
      ends (fun h k => exists more, h = s_heap s0 ++ more /\ heap_size more + N.to_nat k <= room + texts_room (r :: rest)) (fun (_ : unit) s' => copying_seen s0 s' p t c own q (put_rows u (r :: rest)) (room + texts_room (r :: rest)))
        (wrounds fuel (fun i =>
                let$ length := int_at p T_length in
                if (i <? length)%Z then
                  let$ rows := c_rows p in
                  let$ k := c_row_key rows i in
                  let$ _ :=
                    (if (0 <? k)%N then
                       let$ data := c_row_data rows i in
                       match data with
                       | Some data => let$ _ := c_table_put (Some q) k data in wret tt
                       | None => wret tt
                       end
                     else wret tt) in
                  wret (inl (i + 1)%Z)
                else wret (inr tt)) (Z.of_nat i + 1)%Z s')).
    { intros s' u' room' Cp' Wu' <- New' ->. replace (Z.of_nat i + 1)%Z with (Z.of_nat (i + 1)) by lia. rewrite <- Rest. apply IH; auto; lia. }
    destruct (N.ltb_spec 0 (r_key r)) as [Kp|Kz].
    + rewrite wbind_assoc, wbind_assoc. step (row_data_ok s rp (t_rows t) ds CR L i dq Nd).
      destruct dq as [dq|], (r_data r) as [x|] eqn:Ex; cbn in St; try easy; [|exfalso; assert (r_key r = 0%N) by (now apply Kd); lia].
      rewrite wbind_assoc.
      eapply ends_bind.
      { eapply ends_weaken.
        - apply (put_in_memory s q u fresh_counters own' (r_key r) dq x Tq St); [|exact Kr|lia].
          pose proof (Mx r x Ir Ex). unfold strlen. unfold int_max in Md. lia.
        - intros h k (-> & ->). exists more. split; [exact Hs|]. rewrite texts_cons. rewrite Ex. cbn [text_room]. unfold strlen. lia.
        - intros a s' HQ. exact HQ. }
      intros off s' (own'' & _ & Tq' & Sb & M). rewrite wbind_ret. rewrite wbind_ret.
      assert (Gn : table_get u (r_key r) = None) by (rewrite <- Nr; apply New; auto; unfold occ; rewrite Nr; lia).
      pose proof (put_new u (r_key r) x Wu Gn) as Po.
      apply (Next s' (fst (table_put u (r_key r) x)) (room + (length x + 1))).
      * destruct (snd (table_put u (r_key r) x)) as [off'|] eqn:Es.
        -- destruct M as (H' & Inc & Ln). exists own'', (more ++ [string_block x]). splits; auto.
           ++ apply (table_seen_same s); [|exact Tp]. intros b Ib. split.
              ** rewrite H'. apply nth_error_app1. now apply (seen_old _ _ _ _ _ _ Tp).
              ** apply Sb. intros J. apply Onew in J. apply Oold in Ib. lia.
           ++ now rewrite H', Hs, app_assoc.
           ++ intros b Lb. rewrite Sb; [now apply Ws|]. intros J. apply Onew in J. lia.
           ++ intros b Ib. apply Inc in Ib as [<-|Ib]; [|auto]. rewrite Hs, app_length. lia.
           ++ rewrite live_app, live_one. lia.
           ++ congruence.
           ++ rewrite size_app, string_block_size. lia.
        -- destruct M as (-> & ->). exists own', more. splits; auto; [|lia].
           assert (E : fst (table_put u (r_key r) x) = u). { revert Es. clear. unfold table_put. destruct (r_key r =? 0)%N; [reflexivity|]. destruct (t_length u =? t_used u); [reflexivity|]. destruct (put_offset u (r_key r)); [discriminate|reflexivity]. }
           now rewrite E.
      * now apply wf_put.
      * rewrite texts_cons. rewrite Ex. cbn [text_room]. lia.
      * intros j Lj Lj' Oj. rewrite put_other_key; [apply New; auto; lia|exact Wu|].
        intros E. rewrite <- Nr in E. assert (j = i); [|lia]. apply (wf_uniq t Wt); auto.
      * cbn [put_rows]. rewrite Ex. now apply N.ltb_lt in Kp as ->.
    + rewrite wbind_assoc, wbind_ret, wbind_ret. assert (Z0 : r_key r = 0%N) by lia. apply Kd in Z0. apply (Next s u room Cp Wu); [|intros j Lj; apply New; lia|].
      * rewrite texts_cons. rewrite Z0. reflexivity.
      * cbn [put_rows]. now rewrite Z0.
Qed.

Theorem resize_seen s p t c own n (hashed : bool) : limited al ->
  table_seen s p t c own -> wf t -> (n <= int_max)%Z -> (Z.of_nat (t_overwrites t) < int_max)%Z ->
  ends (fun h k => exists more, h = s_heap s ++ more /\ heap_size more + N.to_nat k <= copy_room t n)
       (fun q s' => q = mkPtr (length (s_heap s)) 0 /\ copying_seen s s' p t c own q (table_resize t n hashed) (copy_room t n))
       (c_table_resize (Some p) n (if hashed then 1 else 0) s).
Proof.
  intros Lal T Wt Le Ow. unfold c_table_resize, table_resize.
  eapply ends_bind.
  { eapply ends_weaken; [apply (init_in_memory s n Le)| |intros a s' HQ; exact HQ].
    intros h k [(-> & ->)|(-> & ->)]; [exists []; rewrite app_nil_r|exists [blank 64]]; (split; [reflexivity|]); unfold copy_room; [change (heap_size []) with 0|change (heap_size [blank 64]) with 64]; lia. }
  intros q s1 (-> & (rq & dq & fq & C1 & R1 & F1 & D1 & Eo1 & ND1 & Ra1) & H1 & W1 & Rf). set (q := mkPtr (length (s_heap s)) 0) in *.
  set (t0 := table_init n) in *. assert (E0 : t0 = mkTable (repeat empty_row (new_size n)) 0 0 None 0 true false 0) by apply table_init_eq.
  assert (Df0 : t_default t0 = None) by now rewrite E0.
  rewrite Df0 in D1. destruct fq; [easy|].
  assert (Dist : p_block rq <> p_block q).
  { rewrite Eo1 in ND1. apply NoDup_cons_iff in ND1 as (ND1 & _). intros E. apply ND1. rewrite E. now left. }
  assert (Bq : forall b, In b [length (s_heap s); S (length (s_heap s))] -> length (s_heap s) <= b) by (intros b [<-|[<-|[]]]; lia).
  assert (Brq : p_block rq = S (length (s_heap s))) by (cbn in Eo1; now injection Eo1).
  step (assign_ok s1 q _ 9 (Int (if hashed then 1 else 0)) C1 ltac:(cbn; lia) : assign q T_use_hash _ s1 = _).
  assert (C2 := assigned_content s1 q _ 9 (Int (if hashed then 1 else 0)) (Num (if hashed then 1 else 0)) C1 ltac:(left; reflexivity)). cbn in C2.
  assert (R2 := assigned_other s1 q 9 (Int (if hashed then 1 else 0)) rq _ Dist R1).
  set (s2 := assigned s1 q 9 (Int (if hashed then 1 else 0))) in *.
  assert (W2 : forall b, b < length (s_heap s) -> s_words s2 b = s_words s b).
  { intros b Lb. transitivity (s_words s1 b); [apply update_other; cbn; lia|]. apply W1. intros J. apply Bq in J. lia. }
  assert (H2 : s_heap s2 = s_heap s ++ [blank 64; blank (16 * N.of_nat (new_size n))]) by exact H1.
  assert (Bz : heap_size [blank 64; blank (16 * N.of_nat (new_size n))] = 64 + 16 * new_size n).
  { change [blank 64; blank (16 * N.of_nat (new_size n))] with ([blank 64] ++ [blank (16 * N.of_nat (new_size n))]). rewrite size_app. unfold blank. rewrite !size_one, !repeat_length. lia. }
  clearbody s2. clear C1 R1 W1 H1.
  assert (Told : forall s', (exists more, s_heap s' = s_heap s ++ more) -> (forall b, b < length (s_heap s) -> s_words s' b = s_words s b) -> table_seen s' p t c own).
  { intros s' (more & Hm) Wm. apply (table_seen_same s); [|exact T]. intros b Ib. pose proof (seen_old _ _ _ _ _ _ T Ib) as Lb. split; [|auto]. rewrite Hm. now apply nth_error_app1. }
  pose proof (Told s2 ltac:(eauto) W2) as T2. pose proof T2 as (rp & ds & df & CP & CR & F & D & Eo & Ra).
  step (ptr_at_ok _ _ _ 3 _ CP eq_refl : ptr_at p T_default_translation s2 = _).
  (* the default *)
  eapply ends_bind with (Q' := fun (_ : unit) s3 => exists df' more,
     content s3 q (set_nth (table_values (mkTable (t_rows t0) (t_used t0) (t_maxdata t0) (t_default t) (t_overwrites t0) hashed (t_builtin t0) (t_maxkey t0)) fresh_counters None (Some rq)) 3 (Adr df')) /\
     content s3 rq (row_values (t_rows t0) dq) /\
     (s_heap s3 = s_heap s ++ more /\ forall b, b < length (s_heap s) -> s_words s3 b = s_words s b) /\
     string_in (s_heap s3) df' (t_default t) /\ NoDup (p_block q :: p_block rq :: block_list (df' :: dq)) /\
     (forall b, In b (p_block q :: p_block rq :: block_list (df' :: dq)) -> length (s_heap s) <= b) /\
     live more = length (p_block q :: p_block rq :: block_list (df' :: dq)) /\ heap_size more <= 64 + 16 * new_size n + text_room (t_default t) /\
     Forall2 (fun (d : option ptr) (r : row) => string_in (s_heap s3) d (r_data r)) dq (t_rows t0)).
  { destruct df as [df|], (t_default t) as [x|] eqn:Ed; cbn in D; try easy.
    - eapply ends_bind.
      { eapply ends_weaken.
        - apply (strdup_ok s2 df x D). pose proof (limited_at al (s_heap s) 64 Lal Rf) as B.
          assert (Dx : text_in (s_heap s) (Some df) (Some x)).
          { destruct T as (rp' & ds' & df' & CP' & CR' & F' & D' & Eo' & _).
            assert (df' = Some df).
            { pose proof (ptr_at_ok _ _ _ 3 _ CP eq_refl) as A. pose proof (content_same s2 s p _ ltac:(rewrite H2; symmetry; apply nth_error_app1; exact (content_live _ _ _ CP')) ltac:(symmetry; apply W2; exact (content_live _ _ _ CP')) CP) as CPs.
              pose proof (ptr_at_ok _ _ _ 3 _ CPs eq_refl) as A1. pose proof (ptr_at_ok _ _ _ 3 _ CP' eq_refl) as A2. rewrite A1 in A2. injection A2 as ->. reflexivity. }
            subst df'. rewrite Ed in D'. exact D'. }
          pose proof (cstr_size _ _ _ Dx). unfold fits, strlen. unfold limit in B. lia.
        - intros h k (-> & ->). eexists. split; [exact H2|]. rewrite Bz. unfold copy_room. rewrite Ed. cbn [text_room]. unfold strlen. lia.
        - intros a s' HQ. exact HQ. }
      intros copy s3 (-> & -> & _). 
      assert (C3 := content_grow s2 [string_block x] _ _ C2). assert (R3 := content_grow s2 [string_block x] _ _ R2).
      set (copy := mkPtr (length (s_heap s2)) 0).
      rewrite (assign_ok _ q _ 3 (Ptr copy) C3 ltac:(cbn; lia) : assign q T_default_translation _ _ = _).
      assert (C4 := assigned_content _ q _ 3 (Ptr copy) (Adr (Some copy)) C3 ltac:(right; eauto)).
      assert (R4 := assigned_other _ q 3 (Ptr copy) rq _ Dist R3).
      assert (Bc : length (s_heap s2) = length (s_heap s) + 2) by (rewrite H2, app_length; reflexivity).
      assert (Bl : block_list (Some copy :: dq) = [length (s_heap s) + 2]).
      { change (block_list (Some copy :: dq)) with (p_block copy :: block_list dq). cbn in Eo1. fold (block_list dq) in Eo1. injection Eo1 as _ <-. cbn. now rewrite Bc. }
      constructor. exists (Some copy), ([blank 64; blank (16 * N.of_nat (new_size n))] ++ [string_block x]). rewrite Bl. splits; auto.
      + cbn. now rewrite H2, <- app_assoc.
      + intros b Lb. transitivity (s_words s2 b); [apply update_other; cbn; lia|auto].
      + cbn [s_heap assigned grow]. apply string_in_new. eapply cstr_at_nonul. exact D.
      + rewrite Brq. constructor; [cbn; lia|]. constructor; [cbn; lia|]. constructor; [easy|constructor].
      + intros b [<-|[<-|[<-|[]]]]; cbn; lia.
      + rewrite size_app, Bz, string_block_size. cbn [text_room]. lia.
      + cbn [s_heap assigned grow]. rewrite E0 in F1 |- *. cbn [t_rows] in F1 |- *. rewrite H2. clear - F1.
        assert (forall r, In r (repeat empty_row (new_size n)) -> r = empty_row) as Em by (intros r I; now apply repeat_spec in I). revert F1 Em. generalize (repeat empty_row (new_size n)).
        intros l F1. induction F1; intros Em; constructor.
        * rewrite (Em y (or_introl eq_refl)) in *. destruct x0; [easy|exact I].
        * apply IHF1. intros r I. apply Em. now right.
    - constructor. exists None, [blank 64; blank (16 * N.of_nat (new_size n))].
      assert (Bl : block_list (None :: dq) = []) by (cbn in Eo1 |- *; now injection Eo1).
      rewrite Bl. splits; auto.
      + rewrite Brq. constructor; [cbn; lia|]. constructor; [easy|constructor].
      + intros b [<-|[<-|[]]]; cbn; lia.
      + rewrite Bz. lia.
      + rewrite E0 in F1 |- *. cbn [t_rows] in F1 |- *. clear - F1.
        assert (forall r, In r (repeat empty_row (new_size n)) -> r = empty_row) as Em by (intros r I; now apply repeat_spec in I). revert F1 Em. generalize (repeat empty_row (new_size n)).
        intros l F1. induction F1; intros Em; constructor.
        * rewrite (Em y (or_introl eq_refl)) in *. destruct x; [easy|exact I].
        * apply IHF1. intros r I. apply Em. now right. }
  intros [] s3 (df' & more & C3 & R3 & (H3 & W3) & D3 & ND3 & On3 & Lv3 & Sz3 & F3). cbn in C3.
  pose proof (Told s3 ltac:(eauto) W3) as T3. pose proof T3 as (rp3 & ds3 & df3 & CP3 & _).
  step (int_at_ok _ _ _ 7 _ CP3 eq_refl : int_at p T_overwrites s3 = _).
  step (assign_ok s3 q _ 7 (Int (Z.of_nat (t_overwrites t))) C3 ltac:(cbn; lia) : assign q T_overwrites _ s3 = _).
  assert (C4 := assigned_content s3 q _ 7 (Int (Z.of_nat (t_overwrites t))) (Num (Z.of_nat (t_overwrites t))) C3 ltac:(left; reflexivity)). cbn in C4.
  assert (R4 := assigned_other s3 q 7 (Int (Z.of_nat (t_overwrites t))) rq _ Dist R3).
  set (s4 := assigned s3 q 7 (Int (Z.of_nat (t_overwrites t)))) in *.
  assert (W4 : forall b, b < length (s_heap s) -> s_words s4 b = s_words s b).
  { intros b Lb. transitivity (s_words s3 b); [apply update_other; cbn; lia|auto]. }
  set (r1 := mkTable (t_rows t0) (t_used t0) (t_maxdata t0) (t_default t) (t_overwrites t) hashed (t_builtin t0) (t_maxkey t0)).
  assert (Cp : copying_seen s s4 p t c own q r1 (64 + 16 * new_size n + text_room (t_default t))).
  { eexists (p_block q :: p_block rq :: block_list (df' :: dq)), more. splits; auto.
    - apply Told; [exists more; exact H3|exact W4].
    - exists rq, dq, df'. splits; auto. }
  eapply ends_bind.
  { unfold wwhile. change 0%Z with (Z.of_nat 0). destruct (resize_start t n hashed) as (Wr & Gr).
    assert (Fu : length (t_rows t) < S (heap_size (s_heap s4))).
    { destruct Cp as (_ & _ & (rp4 & ds4 & df4 & _ & CR4 & F4 & _) & _). pose proof (content_size _ _ _ CR4) as Sz. rewrite row_values_length in Sz by exact (Forall2_len _ _ _ F4). lia. }
    apply (copy_rounds s p t c own q (fun b Ib => seen_old _ _ _ _ _ _ T Ib) Wt Ow (length (t_rows t)) (S (heap_size (s_heap s4))) 0 s4 r1 (64 + 16 * new_size n + text_room (t_default t))); auto; try lia. }
  intros [] s5 Cp5. constructor. split; [reflexivity|]. exact Cp5.
Qed.

Theorem resize_in_memory s p t c own n (hashed : bool) : limited al ->
  table_at s p t c own -> wf t -> (n <= int_max)%Z -> (Z.of_nat (t_overwrites t) < int_max)%Z ->
  ends (fun h k => exists more, h = s_heap s ++ more /\ heap_size more + N.to_nat k <= copy_room t n)
       (fun q s' => q = mkPtr (length (s_heap s)) 0 /\ copying s s' p t c own q (table_resize t n hashed) (copy_room t n))
       (c_table_resize (Some p) n (if hashed then 1 else 0) s).
Proof.
  intros Lal T Wt Le Ow. eapply ends_weaken; [apply (resize_seen s p t c own n hashed Lal (table_at_seen _ _ _ _ _ T) Wt Le Ow)|auto|].
  intros q s' (E & own' & more & _ & Tq & H & W & X). split; [exact E|]. exists own', more. splits; auto; try apply X.
  apply (table_at_same s); [|exact T]. intros b Ib. pose proof (own_old _ _ _ _ _ _ T Ib) as Lb. split; [rewrite H; now apply nth_error_app1|auto].
Qed.

(** ** The end of a table *)

Lemma free_rounds w p t c rp ds df :
  length ds = length (t_rows t) -> in_range t ->
  forall n fuel i h, length (t_rows t) - i = n -> i <= length (t_rows t) -> n < fuel ->
  content (mkStore h w) p (table_values t c df (Some rp)) -> content (mkStore h w) rp (row_values (t_rows t) ds) ->
  NoDup (p_block p :: p_block rp :: block_list (skipn i ds)) ->
  Forall2 (fun d r => string_in h d (r_data r)) (skipn i ds) (skipn i (t_rows t)) ->
  wrounds fuel (fun i =>
                  let$ length := int_at p T_length in
                  if (i <? length)%Z then
                    let$ rows := c_rows p in
                    let$ k := c_row_key rows i in
                    let$ _ :=
                      (if (0 <? k)%N then
                         let$ data := c_row_data rows i in
                         match data with Some data => bytes (free data) | None => wret tt end
                       else wret tt) in
                    wret (inl (i + 1)%Z)
                  else wret (inr tt)) (Z.of_nat i) (mkStore h w) = done (tt, mkStore (free_all (block_list (skipn i ds)) h) w).
Proof.
  intros L Ra. pose proof Ra as (Pos & Lm & Us & Md & Mk & K & Mx).
  induction n as [|n IH]; intros fuel i h En Le Lt CP CR ND F; (destruct fuel as [|fuel]; [lia|]); cbn [wrounds];
    rewrite wbind_assoc; step (int_at_ok _ _ _ 0 _ CP eq_refl : int_at p T_length _ = _); rewrite of_nat_ltb.
  - replace (i <? length (t_rows t)) with false by (symmetry; apply Nat.ltb_ge; lia). rewrite wbind_ret.
    rewrite skipn_all2 by lia. reflexivity.
  - assert (I : i < length (t_rows t)) by lia. pose proof I as I'. apply Nat.ltb_lt in I' as ->.
    rewrite wbind_assoc. step (rows_ok _ p _ rp CP eq_refl). rewrite wbind_assoc. step (row_key_ok _ rp (t_rows t) ds CR L K i I).
    destruct (skipn i (t_rows t)) as [|r rest] eqn:Sk.
    { apply (f_equal (@length _)) in Sk. rewrite skipn_length in Sk. cbn in Sk. lia. }
    destruct (skipn i ds) as [|d drest] eqn:Sd.
    { apply (f_equal (@length _)) in Sd. rewrite skipn_length in Sd. cbn in Sd. lia. }
    destruct (skipn_nth _ _ _ _ Sk) as (Nr & Rest). rewrite (nth_row _ _ I) in Nr. injection Nr as Nr. rewrite Nr in *.
    destruct (skipn_nth _ _ _ _ Sd) as (Nd & DRest).
    assert (Ir : In r (t_rows t)) by (rewrite <- Nr; unfold row_at; now apply nth_In).
    rewrite Forall_forall in K. pose proof (K r Ir) as (Kr & Kd).
    assert (St : string_in h d (r_data r)) by (inversion F; assumption).
    assert (F' : Forall2 (fun d r => string_in h d (r_data r)) drest rest) by (inversion F; assumption). clear F. rename F' into F.
    replace (Z.of_nat i + 1)%Z with (Z.of_nat (i + 1)) by lia.
    destruct (N.ltb_spec 0 (r_key r)) as [Kp|Kz].
    + rewrite wbind_assoc, wbind_assoc. step (row_data_ok _ rp (t_rows t) ds CR L i d Nd).
      destruct d as [d|], (r_data r) as [x|] eqn:Ex; cbn in St; try easy; [|exfalso; assert (r_key r = 0%N) by (now apply Kd); lia].
      destruct St as (O & Cd). pose proof Cd as (cells & tail & N & _). destruct d as [b o]. cbn in O, N. subst o.
      step (wfree_ok (mkStore h w) b cells N). cbn [s_heap s_words]. rewrite wbind_ret.
      change (block_list (Some (mkPtr b 0) :: drest)) with (b :: block_list drest) in *.
      assert (Np : b <> p_block p). { intros ->. apply NoDup_cons_iff in ND as (X & _). apply X. right. now left. }
      assert (Nrp : b <> p_block rp). { intros ->. apply NoDup_cons_iff in ND as (_ & ND). apply NoDup_cons_iff in ND as (X & _). apply X. now left. }
      rewrite IH; auto; try lia.
      * rewrite DRest. reflexivity.
      * apply (content_same (mkStore h w)); [cbn; now rewrite set_other|reflexivity|exact CP].
      * apply (content_same (mkStore h w)); [cbn; now rewrite set_other|reflexivity|exact CR].
      * rewrite DRest. clear - ND. apply NoDup_cons_iff in ND as (X & ND). apply NoDup_cons_iff in ND as (Y & ND). apply NoDup_cons_iff in ND as (Z & ND).
        constructor; [|constructor; [|exact ND]].
        -- intros [E|J]; apply X; [now left|right; now right].
        -- intros J. apply Y. now right.
      * rewrite DRest, Rest. apply NoDup_cons_iff in ND as (_ & ND). apply NoDup_cons_iff in ND as (_ & ND). apply NoDup_cons_iff in ND as (Z & _).
        clear - F Z. induction F; constructor.
        -- eapply string_in_same; [|exact H]. intros q ->. apply set_other. intros ->. apply Z. now left.
        -- apply IHF. intros J. apply Z. unfold block_list. cbn. apply in_app_iff. now right.
    + rewrite wbind_assoc, wbind_ret, wbind_ret. assert (Z0 : r_key r = 0%N) by lia. apply Kd in Z0. rewrite Z0 in St. destruct d; [easy|].
      rewrite IH; auto; try lia; rewrite ?DRest, ?Rest; auto.
Qed.

Theorem free_in_memory s p t c own : table_at s p t c own -> t_builtin t = false ->
  exists h', c_table_free (Some p) s = done (tt, mkStore h' (s_words s)) /\ without own (s_heap s) h' /\
             live h' + length own = live (s_heap s).
Proof.
  intros T Nb. pose proof T as (rp & ds & df & CP & CR & F & D & Eo & ND & Ra). pose proof (Forall2_len _ _ _ F) as L.
  unfold c_table_free. step (int_at_ok _ _ _ 10 _ CP eq_refl : int_at p T_builtin _ = _). rewrite Nb. cbn [Z.eqb].
  destruct s as [h w]. cbn [s_heap s_words] in *.
  assert (ND0 : NoDup (p_block p :: p_block rp :: block_list ds)).
  { rewrite Eo in ND. change (df :: ds) with ([df] ++ ds) in ND. rewrite block_list_app in ND. destruct df as [q|]; [|exact ND].
    apply (NoDup_remove_1 [p_block p; p_block rp] (block_list ds) (p_block q) ND). }
  match goal with |- context[wbind (wwhile ?b ?i) ?k ?s] => assert (M : wwhile b i s = done (tt, mkStore (free_all (block_list ds) h) w)) end.
  { unfold wwhile. change 0%Z with (Z.of_nat 0). rewrite (free_rounds w p t c rp ds df L Ra (length (t_rows t))); auto; try lia.
    pose proof (content_size _ _ _ CR) as Sz. rewrite row_values_length in Sz by exact L. lia. }
  step M. clear M. set (h1 := free_all (block_list ds) h).
  assert (Keep : forall b, ~ In b (block_list ds) -> nth_error h1 b = nth_error h b) by (intros b Nn; now apply free_all_other).
  assert (ND1 := ND0). apply NoDup_cons_iff in ND1 as (Np & ND1). apply NoDup_cons_iff in ND1 as (Nrp & _).
  assert (CP1 : content (mkStore h1 w) p (table_values t c df (Some rp))).
  { apply (content_same (mkStore h w)); [|reflexivity|exact CP]. cbn. apply Keep. intros J. apply Np. now right. }
  assert (CR1 : content (mkStore h1 w) rp (row_values (t_rows t) ds)).
  { apply (content_same (mkStore h w)); [|reflexivity|exact CR]. cbn. now apply Keep. }
  step (ptr_at_ok _ _ _ 3 _ CP1 eq_refl : ptr_at p T_default_translation _ = _).
  set (h2 := free_all (block_list [df]) h1).
  assert (Ndf : forall q, df = Some q -> ~ In (p_block q) (block_list ds) /\ p_block q <> p_block p /\ p_block q <> p_block rp).
  { intros q ->. rewrite Eo in ND. change (block_list (Some q :: ds)) with (p_block q :: block_list ds) in ND.
    apply NoDup_cons_iff in ND as (X & ND). apply NoDup_cons_iff in ND as (Y & ND). apply NoDup_cons_iff in ND as (Z & _).
    splits; auto; intros E; [apply X; right; now left|apply Y; now left]. }
  match goal with |- context[wbind ?m ?k ?s] => assert (M : m s = done (tt, mkStore h2 w)) end.
  { unfold h2. destruct df as [[b o]|]; [|reflexivity]. destruct (t_default t) as [x|]; cbn in D; [|easy]. destruct D as (O & cells & tail & N & _). cbn in O, N. subst o.
    change (block_list [Some (mkPtr b 0)]) with [b]. change (free_all [b] h1) with (set_block h1 b None).
    apply (wfree_ok (mkStore h1 w) b cells). cbn. rewrite Keep; [exact N|]. now apply (Ndf (mkPtr b 0)). }
  step M. clear M.
  assert (Keep2 : forall b, ~ In b (block_list [df]) -> nth_error h2 b = nth_error h1 b) by (intros b Nn; now apply free_all_other).
  assert (Ndf' : ~ In (p_block p) (block_list [df]) /\ ~ In (p_block rp) (block_list [df])).
  { destruct df as [q|]; [|split; intros []]. destruct (Ndf q eq_refl) as (_ & X & Y). split; intros [E|[]]; auto. }
  assert (CP2 : content (mkStore h2 w) p (table_values t c df (Some rp))).
  { apply (content_same (mkStore h1 w)); [|reflexivity|exact CP1]. cbn. now apply Keep2. }
  assert (CR2 : content (mkStore h2 w) rp (row_values (t_rows t) ds)).
  { apply (content_same (mkStore h1 w)); [|reflexivity|exact CR1]. cbn. now apply Keep2. }
  step (rows_ok _ p _ rp CP2 eq_refl).
  assert (Dist : p_block rp <> p_block p) by (intros E; apply Np; now left).
  destruct CR2 as (Or & _ & cr & Ncr & _). destruct rp as [br o]. cbn in Or, Ncr, Dist. subst o.
  step (wfree_ok (mkStore h2 w) br cr Ncr). cbn [s_heap s_words].
  destruct CP2 as (Op & _ & cp & Ncp & _). destruct p as [bp o]. cbn in Op, Ncp, Dist. subst o.
  rewrite (wfree_ok (mkStore (set_block h2 br None) w) bp cp) by (cbn; now rewrite set_other).
  cbn [s_heap s_words]. eexists. split; [reflexivity|].
  assert (E : set_block (set_block h2 br None) bp None = free_all (block_list ds ++ block_list [df] ++ [br; bp]) h).
  { rewrite !free_all_app. reflexivity. }
  assert (W : without own h (set_block (set_block h2 br None) bp None)).
  { assert (Same : forall b, In b (block_list ds ++ block_list [df] ++ [br; bp]) <-> In b own).
    { intros b. rewrite Eo. change (df :: ds) with ([df] ++ ds). rewrite block_list_app. cbn [p_block]. generalize (block_list ds) (block_list [df]). intros l1 l2.
      rewrite !in_app_iff. cbn [In]. rewrite !in_app_iff. tauto. }
    rewrite E. apply free_all_without; [exact Same|].
    intros b I. exact (own_old _ _ _ _ _ _ T (proj1 (Same b) I)). }
  split; [exact W|]. apply (without_live own h); [exact ND| |exact W]. intros b I. exact (own_live _ _ _ _ _ _ T I).
Qed.

End tables.
