(** * Proofs about lists of files in memory *)

From Verif Require Import Base BaseFacts Stdio Prog Warnings Mem MemSpec MemFacts Words WordsSpec WordsFacts Filelist CFilelist FilesSpec CTableProofs CTableProofs2.

Local Open Scope nat_scope.

Lemma files_ok s p vs array : content s p vs -> nth_error vs 0 = Some (Adr (Some array)) -> c_files p s = done (array, s).
Proof. intros C V. unfold c_files. step (ptr_at_ok _ _ _ _ _ C V : ptr_at p L_files s = _). reflexivity. Qed.

Lemma slot_values (names : list ptr) n i q : nth_error names i = Some q ->
  nth_error (map (fun q => Adr (Some q)) names ++ repeat Any n) i = Some (Adr (Some q)).
Proof. intros E. apply nth_old. rewrite nth_error_map, E. reflexivity. Qed.

Lemma list_own_live s p files max cursor own b : list_at s p files max cursor own -> In b own -> exists cells, nth_error (s_heap s) b = Some (Some cells).
Proof.
  intros (array & names & CP & CA & F & -> & _) [<-|[<-|I]].
  - destruct CP as (_ & _ & cells & E & _). eauto.
  - destruct CA as (_ & _ & cells & E & _). eauto.
  - apply in_map_iff in I as (q & <- & I). apply In_nth_error in I as (i & I). destruct (Forall2_nth_l _ _ _ _ _ F I) as (f & _ & _ & cells & rest & E & _). eauto.
Qed.

Lemma list_own_old s p files max cursor own b : list_at s p files max cursor own -> In b own -> b < length (s_heap s).
Proof. intros T I. destruct (list_own_live _ _ _ _ _ _ _ T I) as (cells & E). apply nth_error_Some. now rewrite E. Qed.

Lemma list_distinct p array (names : list ptr) own : own = p_block p :: p_block array :: map p_block names -> NoDup own -> p_block array <> p_block p.
Proof. intros -> ND E. apply NoDup_cons_iff in ND as (X & _). apply X. rewrite E. now left. Qed.

(** ** Reading *)

Theorem list_count s p files max cursor own : list_at s p files max cursor own ->
  c_filelist_count (Some p) s = done (Z.of_nat (length files), s).
Proof. intros (array & names & CP & _). exact (int_at_ok _ _ _ 2 _ CP eq_refl). Qed.

Theorem list_reset s p files max cursor own : list_at s p files max cursor own ->
  exists s', c_filelist_reset (Some p) s = done (tt, s') /\ list_at s' p files max 0 own /\ s_heap s' = s_heap s /\ same_but [p_block p] s s'.
Proof.
  intros (array & names & CP & CA & F & Eo & ND & B & M). pose proof (list_distinct _ _ _ _ Eo ND) as Dist. unfold c_filelist_reset.
  rewrite (assign_ok s p _ 3 (Int 0) CP ltac:(cbn; lia) : assign p L_ptr _ s = _).
  assert (C1 := assigned_content s p _ 3 (Int 0) (Num 0) CP ltac:(left; reflexivity)).
  assert (R1 := assigned_other s p 3 (Int 0) array _ Dist CA).
  eexists. splits; [reflexivity| |reflexivity|].
  - exists array, names. splits; auto; lia.
  - intros b Nb. apply update_other. intros ->. apply Nb. now left.
Qed.

Theorem list_get s p files max cursor own : list_at s p files max cursor own ->
  exists q s', c_filelist_get (Some p) s = done (q, s') /\ string_in (s_heap s') q (nth_error files cursor) /\
    list_at s' p files max (onward files cursor) own /\ s_heap s' = s_heap s /\ same_but [p_block p] s s'.
Proof.
  intros T. pose proof T as (array & names & CP & CA & F & Eo & ND & B & M). pose proof (list_distinct _ _ _ _ Eo ND) as Dist.
  unfold c_filelist_get, onward. step (int_at_ok _ _ _ 2 _ CP eq_refl : int_at p L_count s = _).
  destruct (Z.eqb_spec (Z.of_nat (length files)) 0) as [Z0|Nz].
  - destruct files; [|cbn in Z0; lia]. cbn in B. replace cursor with 0 in * by lia.
    exists None, s. splits; try reflexivity; auto; easy.
  - step (int_at_ok _ _ _ 3 _ CP eq_refl : int_at p L_ptr s = _). step (int_at_ok _ _ _ 2 _ CP eq_refl : int_at p L_count s = _).
    rewrite of_nat_eqb. destruct (Nat.eqb_spec cursor (length files)) as [->|Ne].
    + step (assign_ok s p _ 3 (Int 0) CP ltac:(cbn; lia) : assign p L_ptr _ s = _).
      assert (C1 := assigned_content s p _ 3 (Int 0) (Num 0) CP ltac:(left; reflexivity)).
      assert (R1 := assigned_other s p 3 (Int 0) array _ Dist CA).
      exists None. eexists. splits; [reflexivity| | |reflexivity|].
      * now rewrite (proj2 (nth_error_None files (length files)) ltac:(lia)).
      * exists array, names. splits; auto; lia.
      * intros b Nb. apply update_other. intros ->. apply Nb. now left.
    + step (files_ok s p _ array CP eq_refl). step (int_at_ok _ _ _ 3 _ CP eq_refl : int_at p L_ptr s = _).
      step (incr_ok s p _ 3 _ CP eq_refl ltac:(lia) : incr p L_ptr s = _). step (index_ok cursor (assigned s p 3 (Int (Z.of_nat cursor + 1)))).
      assert (C1 := assigned_content s p _ 3 (Int (Z.of_nat cursor + 1)) (Num (Z.of_nat (S cursor))) CP ltac:(left; f_equal; f_equal; lia)).
      assert (R1 := assigned_other s p 3 (Int (Z.of_nat cursor + 1)) array _ Dist CA). cbn in C1.
      destruct (nth_error files cursor) as [f|] eqn:Nf; [|apply nth_error_None in Nf; lia].
      destruct (Forall2_nth _ _ _ _ _ F Nf) as (q & Nq & St).
      rewrite (ptr_at_ok _ array _ cursor (Some q) R1 (slot_values _ _ _ _ Nq)).
      exists (Some q). eexists. splits; [reflexivity| | |reflexivity|].
      * exact St.
      * exists array, names. splits; auto; lia.
      * intros b Nb. apply update_other. intros ->. apply Nb. now left.
Qed.

Section memory.

Context {al : allocator}.

(** ** A new list *)

Theorem list_init s : ends (fun h k => h = s_heap s /\ k = 24%N \/ h = s_heap s ++ [blank 24] /\ k = 128%N)
  (fun p s' => p = mkPtr (length (s_heap s)) 0 /\ list_at s' p [] 16 0 [length (s_heap s); S (length (s_heap s))] /\
     s_heap s' = s_heap s ++ [blank 24; blank 128] /\ same_but [length (s_heap s); S (length (s_heap s))] s s')
  (c_filelist_init s).
Proof.
  unfold c_filelist_init. eapply ends_bind.
  { eapply ends_weaken; [apply (new_ok s sizeof_filelist_t L_members)| |intros a s' HQ; exact HQ]. intros h k (-> & ->). now left. }
  intros p s1 (-> & -> & _).
  assert (C1 := given_content s sizeof_filelist_t L_members ltac:(apply Nat.leb_le; reflexivity)).
  step (clear_ok _ _ _ L_members C1 ltac:(apply Nat.leb_le; reflexivity)).
  set (vs := [Adr None; Num 0; Num 0; Num 0]).
  assert (C2 := cleared_content _ _ _ vs C1 eq_refl ltac:(unfold vs; repeat (apply Forall_cons; [cbn; auto|]); apply Forall_nil)).
  rewrite repeat_length in C2. set (p := mkPtr (length (s_heap s)) 0) in *.
  set (s2 := cleared (given s sizeof_filelist_t L_members) p L_members) in *.
  assert (H2 : s_heap s2 = s_heap s ++ [blank 24]) by reflexivity.
  assert (W2 : same_but [length (s_heap s); S (length (s_heap s))] s s2).
  { intros b Nb. cbn. rewrite !update_other; auto; intros ->; apply Nb; now left. }
  clearbody s2. change (Z.of_nat FILELIST_CHUNK) with 16%Z.
  step (assign_ok s2 p _ 1 (Int 16) C2 ltac:(cbn; lia) : assign p L_max _ s2 = _).
  assert (C3 := assigned_content s2 p _ 1 (Int 16) (Num 16) C2 ltac:(left; reflexivity)). cbn in C3.
  set (s3 := assigned s2 p 1 (Int 16)) in *.
  assert (W3 : same_but [length (s_heap s); S (length (s_heap s))] s s3).
  { intros b Nb. rewrite <- (W2 b Nb). apply update_other. intros ->. apply Nb. now left. }
  assert (H3 : s_heap s3 = s_heap s ++ [blank 24]) by exact H2. clearbody s3.
  step (int_at_ok _ _ _ 1 _ C3 eq_refl : int_at p L_max s3 = _).
  change (size_t (sizeof_pointer * size_of 16)) with 128%N. change (pointers 128) with 16.
  eapply ends_bind.
  { eapply ends_weaken; [apply (new_ok s3 128 16)| |intros a s' HQ; exact HQ]. intros h k (-> & ->). right. auto. }
  intros array s4 (-> & -> & _).
  assert (A4 := given_content s3 128 16 ltac:(apply Nat.leb_le; reflexivity)).
  assert (C4 := given_other s3 128 16 _ _ C3).
  assert (B3 : length (s_heap s3) = S (length (s_heap s))) by (rewrite H3, app_length; cbn; lia).
  rewrite B3 in *. set (array := mkPtr (S (length (s_heap s))) 0) in *.
  step (assign_ok _ p _ 0 (Ptr array) C4 ltac:(cbn; lia) : assign p L_files _ _ = _).
  assert (C5 := assigned_content _ p _ 0 (Ptr array) (Adr (Some array)) C4 ltac:(right; eauto)). cbn in C5.
  assert (A5 := assigned_other _ p 0 (Ptr array) array _ ltac:(cbn; lia) A4).
  constructor. splits; auto.
  - exists array, []. splits; auto; try (cbn; lia).
    constructor; [|constructor]; cbn; lia || auto. constructor.
  - cbn [s_heap assigned given]. now rewrite H3, <- app_assoc.
  - intros b Nb. rewrite <- (W3 b Nb). cbn. rewrite !update_other; auto; intros ->; apply Nb; cbn; rewrite ?B3; auto.
Qed.

(** ** Adding *)

Lemma grow_rounds p (files : list str) names array fresh max k z :
  p_block fresh <> p_block p -> p_block fresh <> p_block array -> p_block array <> p_block p -> length names = length files -> length files <= k ->
  forall n fuel i s, length files - i = n -> i <= length files -> n < fuel ->
  content s p [Adr (Some array); Num (Z.of_nat max); Num (Z.of_nat (length files)); Num z] ->
  content s array (map (fun q => Adr (Some q)) names ++ repeat Any (max - length files)) ->
  content s fresh (map (fun q => Adr (Some q)) (firstn i names) ++ repeat Any (k - i)) ->
  exists s', wrounds fuel (fun i =>
              let$ count := int_at p L_count in
              if (i <? count)%Z then
                let$ files := c_files p in
                let$ j := index i in
                let$ f := ptr_at files j in
                let$ _ := assign fresh j (word_of f) in
                wret (inl (i + 1)%Z)
              else wret (inr tt)) (Z.of_nat i) s = done (tt, s') /\
   content s' fresh (map (fun q => Adr (Some q)) names ++ repeat Any (k - length files)) /\
   s_heap s' = s_heap s /\ same_but [p_block fresh] s s'.
Proof.
  intros D1 D2 D3 L Lk. induction n as [|n IH]; intros fuel i s En Le Lt CP CA CF; (destruct fuel as [|fuel]; [lia|]); cbn [wrounds];
    rewrite wbind_assoc; step (int_at_ok _ _ _ 2 _ CP eq_refl : int_at p L_count s = _); rewrite of_nat_ltb.
  - replace (i <? length files) with false by (symmetry; apply Nat.ltb_ge; lia). rewrite wbind_ret.
    exists s. rewrite (firstn_all2 names) in CF by lia. replace (k - i) with (k - length files) in CF by lia. splits; auto. easy.
  - assert (I : i < length files) by lia. pose proof I as I'. apply Nat.ltb_lt in I' as ->.
    rewrite wbind_assoc. step (files_ok s p _ array CP eq_refl). rewrite wbind_assoc. step (index_ok i s).
    destruct (nth_error names i) as [q|] eqn:Nq; [|apply nth_error_None in Nq; lia].
    rewrite wbind_assoc. step (ptr_at_ok _ array _ i (Some q) CA (slot_values _ _ _ _ Nq)).
    assert (Lf : i < length (map (fun q => Adr (Some q)) (firstn i names) ++ repeat Any (k - i))) by (rewrite app_length, map_length, repeat_length, firstn_length; lia).
    rewrite wbind_assoc. step (assign_ok s fresh _ i (word_of (Some q)) CF Lf). rewrite wbind_ret.
    assert (F1 := assigned_content s fresh _ i (Ptr q) (Adr (Some q)) CF ltac:(right; eauto)).
    assert (C1 := assigned_other s fresh i (Ptr q) p _ ltac:(auto) CP). assert (A1 := assigned_other s fresh i (Ptr q) array _ ltac:(auto) CA).
    assert (Ef : set_nth (map (fun q => Adr (Some q)) (firstn i names) ++ repeat Any (k - i)) i (Adr (Some q)) = map (fun q => Adr (Some q)) (firstn (S i) names) ++ repeat Any (k - S i)).
    { replace (k - i) with (S (k - S i)) by lia. cbn [repeat]. 
      destruct (nth_error_split _ _ Nq) as (a & b & -> & La). replace (firstn i (a ++ q :: b)) with a by (rewrite <- La, firstn_app, Nat.sub_diag, firstn_all, firstn_O; now rewrite app_nil_r).
      replace (firstn (S i) (a ++ q :: b)) with (a ++ [q]).
      2: { rewrite <- La. rewrite firstn_app. replace (S (length a) - length a) with 1 by lia. rewrite firstn_all2 by lia. reflexivity. }
      rewrite map_app, <- app_assoc. cbn [map app]. rewrite <- La. generalize (repeat Any (k - S (length a))). clear. intros l. induction a; cbn; auto. now rewrite IHa. }
    rewrite Ef in F1. replace (Z.of_nat i + 1)%Z with (Z.of_nat (S i)) by lia.
    destruct (IH fuel (S i) (assigned s fresh i (Ptr q)) ltac:(lia) ltac:(lia) ltac:(lia) C1 A1 F1) as (s' & E & F' & H' & W').
    exists s'. splits; auto. intros b Nb. rewrite (W' b Nb). apply update_other. intros ->. apply Nb. now left.
Qed.

Lemma NoDup_app_intro {A} (a b : list A) : NoDup a -> NoDup b -> (forall x, In x a -> In x b -> False) -> NoDup (a ++ b).
Proof.
  induction 1 as [|x a Nx ND IH]; intros NB D; cbn; auto. constructor.
  - rewrite in_app_iff. intros [I|I]; [easy|]. apply (D x); auto. now left.
  - apply IH; auto. intros y I J. apply (D y); auto. now right.
Qed.

Lemma nth_skipn {A} n : forall (l : list A) i, nth_error (skipn n l) i = nth_error l (n + i).
Proof. induction n as [|n IH]; intros [|x l] i; cbn; auto. now destruct i. Qed.

(** The blocks [own] have become [own']; other blocks are as they were. *)
Definition moves (own own' : list nat) (s s' : store_t) : Prop :=
  (forall b, b < length (s_heap s) -> ~ In b own -> nth_error (s_heap s') b = nth_error (s_heap s) b /\ s_words s' b = s_words s b) /\
  (forall b, In b own' -> In b own \/ length (s_heap s) <= b) /\ length (s_heap s) <= length (s_heap s') /\
  live (s_heap s') + length own = live (s_heap s) + length own'.

Lemma moves_trans a b c s1 s2 s3 : moves a b s1 s2 -> moves b c s2 s3 -> moves a c s1 s3.
Proof.
  intros (A1 & A2 & A3 & A4) (B1 & B2 & B3 & B4). unfold moves. splits; [| |lia|lia].
  - intros i L Nn. destruct (A1 i L Nn) as (E1 & E2). destruct (B1 i ltac:(lia)) as (E3 & E4); [|split; congruence].
    intros J. apply A2 in J as [J|J]; [easy|lia].
  - intros i J. apply B2 in J as [J|J]; [auto|lia].
Qed.

Lemma grow_ok s p files cursor own max : list_at s p files max cursor own -> length files = max -> (Z.of_nat (max + 16) <= int_max)%Z ->
  ends (fun h k => h = s_heap s /\ k = (8 * N.of_nat (max + 16))%N)
       (fun (_ : unit) s' => exists own', list_at s' p files (max + 16) cursor own' /\ moves own own' s s' /\ length own' = length own /\
          heap_size (s_heap s') <= heap_size (s_heap s) + 8 * (max + 16))
       (c_filelist_grow p s).
Proof.
  intros T Fu Le. pose proof T as (array & names & CP & CA & F & Eo & ND & B & M). pose proof (list_distinct _ _ _ _ Eo ND) as Dist.
  pose proof (Forall2_len _ _ _ F) as L.
  unfold c_filelist_grow. step (int_at_ok _ _ _ 1 _ CP eq_refl : int_at p L_max s = _).
  unfold int_sum. change (Z.of_nat FILELIST_CHUNK) with 16%Z. replace (Z.of_nat max + 16)%Z with (Z.of_nat (max + 16)) by lia.
  apply Z.leb_le in Le as Le'. rewrite Le', wbind_ret. rewrite size_nat by exact Le. unfold size_t, sizeof_pointer.
  rewrite N.mod_small by (unfold int_max in Le; lia). set (k := max + 16) in *.
  replace (pointers (8 * N.of_nat k)) with k by (unfold pointers, sizeof_pointer; rewrite (N.mul_comm 8), N.div_mul by lia; lia).
  eapply ends_bind.
  { eapply ends_weaken; [apply (new_ok s (8 * N.of_nat k) k)|easy|intros a s' HQ; exact HQ]. }
  intros fresh s1 (-> & -> & _). set (fresh := mkPtr (length (s_heap s)) 0).
  assert (Op := list_own_old _ _ _ _ _ _ (p_block p) T ltac:(rewrite Eo; now left)).
  assert (Oa := list_own_old _ _ _ _ _ _ (p_block array) T ltac:(rewrite Eo; right; now left)).
  assert (F1 := given_content s (8 * N.of_nat k) k ltac:(lia)). fold fresh in F1.
  assert (P1 := given_other s (8 * N.of_nat k) k _ _ CP). assert (A1 := given_other s (8 * N.of_nat k) k _ _ CA).
  set (s1 := given s (8 * N.of_nat k) k) in *.
  step (clear_ok s1 fresh _ k F1 ltac:(rewrite repeat_length; lia)).
  assert (F2 := cleared_content s1 fresh _ (repeat Any k) F1 eq_refl ltac:(apply Forall_forall; intros v I; apply repeat_spec in I; now subst v)). rewrite repeat_length in F2.
  assert (P2 := cleared_other s1 fresh k p _ ltac:(cbn; lia) P1). assert (A2 := cleared_other s1 fresh k array _ ltac:(cbn; lia) A1).
  set (s2 := cleared s1 fresh k) in *.
  assert (W2 : forall b, b < length (s_heap s) -> s_words s2 b = s_words s b) by (intros b Lb; cbn; rewrite !update_other by lia; reflexivity).
  assert (H2 : s_heap s2 = s_heap s ++ [blank (8 * N.of_nat k)]) by reflexivity. clearbody s2.
  destruct (grow_rounds p files names array fresh max k (Z.of_nat cursor) ltac:(cbn; lia) ltac:(cbn; lia) Dist L ltac:(unfold k; lia) (length files) (S (heap_size (s_heap s2))) 0 s2 ltac:(lia) ltac:(lia)) as (s3 & E3 & F3 & H3 & W3); auto.
  { pose proof (content_size _ _ _ A2) as Sz. rewrite app_length, map_length in Sz. lia. }
  { now rewrite Nat.sub_0_r. }
  match goal with |- context[wbind (wwhile ?b ?i) ?j ?s] => assert (Mm : wwhile b i s = done (tt, s3)) by exact E3 end. step Mm. clear Mm E3.
  assert (W3' : forall b, b < length (s_heap s) -> s_words s3 b = s_words s b).
  { intros b Lb. rewrite W3; [auto|]. intros [<-|[]]. cbn in Lb. lia. }
  assert (P3 : content s3 p [Adr (Some array); Num (Z.of_nat max); Num (Z.of_nat (length files)); Num (Z.of_nat cursor)]).
  { apply (content_same s2); [now rewrite H3|apply W3; intros [E|[]]; cbn in E; lia|exact P2]. }
  step (files_ok s3 p _ array P3 eq_refl).
  pose proof A2 as (Oz & _ & ca & Nca & _). rewrite <- H3 in Nca. destruct array as [ba oa]. cbn in Oz, Nca, Oa, Dist. subst oa.
  step (wfree_ok s3 ba ca Nca).
  set (s4 := mkStore (set_block (s_heap s3) ba None) (s_words s3)).
  assert (P4 : content s4 p [Adr (Some (mkPtr ba 0)); Num (Z.of_nat max); Num (Z.of_nat (length files)); Num (Z.of_nat cursor)]).
  { apply (content_same s3); [cbn; now apply set_other|reflexivity|exact P3]. }
  assert (F4 : content s4 fresh (map (fun q => Adr (Some q)) names ++ repeat Any (k - length files))).
  { apply (content_same s3); [cbn; apply set_other; lia|reflexivity|exact F3]. }
  step (assign_ok s4 p _ 0 (Ptr fresh) P4 ltac:(cbn; lia) : assign p L_files _ s4 = _).
  assert (P5 := assigned_content s4 p _ 0 (Ptr fresh) (Adr (Some fresh)) P4 ltac:(right; eauto)). cbn in P5.
  assert (F5 := assigned_other s4 p 0 (Ptr fresh) fresh _ ltac:(cbn; lia) F4). set (s5 := assigned s4 p 0 (Ptr fresh)) in *.
  rewrite (assign_ok s5 p _ 1 (Int (Z.of_nat k)) P5 ltac:(cbn; lia) : assign p L_max _ s5 = _).
  assert (P6 := assigned_content s5 p _ 1 (Int (Z.of_nat k)) (Num (Z.of_nat k)) P5 ltac:(left; reflexivity)). cbn in P6.
  assert (F6 := assigned_other s5 p 1 (Int (Z.of_nat k)) fresh _ ltac:(cbn; lia) F5). set (s6 := assigned s5 p 1 (Int (Z.of_nat k))) in *.
  assert (H6 : s_heap s6 = set_block (s_heap s) ba None ++ [blank (8 * N.of_nat k)]).
  { change (s_heap s6) with (set_block (s_heap s3) ba None). rewrite H3, H2. now apply set_app_l. }
  constructor. exists (p_block p :: p_block fresh :: map p_block names). rewrite Eo in ND. splits.
  - exists fresh, names. splits; auto; try (unfold k; lia).
    + rewrite H6. assert (Nn : forall q, In q names -> p_block q <> ba).
      { intros q I E. apply NoDup_cons_iff in ND as (_ & ND). apply NoDup_cons_iff in ND as (X & _). apply X. cbn. rewrite <- E. now apply in_map. }
      clear - F Nn. induction F as [|q f names files (O & C) F IH]; constructor; auto.
      * split; [exact O|]. apply cstr_old, cstr_set; [|exact C]. apply Nn. now left.
      * apply IH. intros q' I. apply Nn. now right.
    + apply NoDup_cons_iff in ND as (X & ND). apply NoDup_cons_iff in ND as (Y & ND).
      assert (Fr : ~ In (p_block fresh) (map p_block names)).
      { intros I. assert (J : In (p_block fresh) own) by (rewrite Eo; right; now right). apply (list_own_old _ _ _ _ _ _ _ T) in J. cbn in J. lia. }
      constructor; [|constructor; auto]. intros [E|I]; [cbn in E; lia|]. apply X. now right.
  - unfold moves. splits.
    + intros b Lb Nb. rewrite H6. split.
      * rewrite nth_error_app1 by (rewrite set_length; exact Lb). apply set_other. intros ->. apply Nb. rewrite Eo. right. now left.
      * assert (b <> p_block p) by (intros ->; apply Nb; rewrite Eo; now left). transitivity (s_words s5 b); [now apply update_other|]. transitivity (s_words s4 b); [now apply update_other|]. now apply W3'.
    + intros b [<-|[<-|I]]; rewrite Eo; [left; now left|right; cbn; lia|left; right; now right].
    + rewrite H6, app_length, set_length. lia.
    + rewrite H6, live_app. assert (Nca' : nth_error (s_heap s) ba = Some (Some ca)) by (rewrite H3, H2, nth_error_app1 in Nca by exact Oa; exact Nca).
      pose proof (live_set _ _ _ Nca'). rewrite Eo. cbn [length]. change (live [blank (8 * N.of_nat k)]) with 1. lia.
  - rewrite Eo. reflexivity.
  - rewrite H6, size_app. unfold blank. rewrite size_one, repeat_length. pose proof (size_free (s_heap s) ba). unfold k. lia.
Qed.

Lemma add_ok s p files cursor own max d name : list_at s p files max cursor own -> length files < max ->
  cstr_at (s_heap s) d name -> fits name ->
  ends (fun h k => h = s_heap s /\ k = (strlen name + 1)%N)
       (fun (_ : unit) s' => exists own', list_at s' p (files ++ [name]) max 0 own' /\ moves own own' s s' /\ length own' = S (length own) /\
          heap_size (s_heap s') <= heap_size (s_heap s) + (length name + 1))
       ((let$ files := c_files p in
         let$ count := int_at p L_count in
         let$ _ := incr p L_count in
         let$ copy := bytes (c_strdup d) in
         let$ i := index count in
         let$ _ := assign files i (Ptr copy) in
         c_filelist_reset (Some p)) s).
Proof.
  intros T Rm Cd Fd. pose proof T as (array & names & CP & CA & F & Eo & ND & B & M). pose proof (list_distinct _ _ _ _ Eo ND) as Dist.
  pose proof (Forall2_len _ _ _ F) as L.
  step (files_ok s p _ array CP eq_refl). step (int_at_ok _ _ _ 2 _ CP eq_refl : int_at p L_count s = _).
  step (incr_ok s p _ 2 _ CP eq_refl ltac:(lia) : incr p L_count s = _).
  assert (P1 := assigned_content s p _ 2 (Int (Z.of_nat (length files) + 1)) (Num (Z.of_nat (length (files ++ [name])))) CP ltac:(left; f_equal; f_equal; rewrite app_length; cbn [length]; lia)). cbn [set_nth] in P1.
  assert (A1 := assigned_other s p 2 (Int (Z.of_nat (length files) + 1)) array _ Dist CA).
  set (s1 := assigned s p 2 (Int (Z.of_nat (length files) + 1))) in *.
  assert (W1 : forall b, b <> p_block p -> s_words s1 b = s_words s b) by (intros b Nb; now apply update_other).
  assert (H1 : s_heap s1 = s_heap s) by reflexivity. clearbody s1.
  eapply ends_bind.
  { eapply ends_weaken; [apply (strdup_ok s1 d name); [now rewrite H1|exact Fd]| |intros a s' HQ; exact HQ]. intros h k (-> & ->). now rewrite H1. }
  intros copy s2 (-> & -> & _). rewrite H1. set (copy := mkPtr (length (s_heap s)) 0).
  assert (P2 := content_grow s1 [string_block name] _ _ P1). assert (A2 := content_grow s1 [string_block name] _ _ A1).
  set (s2 := grow s1 [string_block name]) in *.
  assert (H2 : s_heap s2 = s_heap s ++ [string_block name]) by (cbn; now rewrite H1).
  assert (W2 : forall b, b <> p_block p -> s_words s2 b = s_words s b) by (intros b Nb; now apply W1). clearbody s2.
  step (index_ok (length files) s2).
  assert (La : length files < length (map (fun q => Adr (Some q)) names ++ repeat Any (max - length files))) by (rewrite app_length, map_length, repeat_length; lia).
  step (assign_ok s2 array _ (length files) (Ptr copy) A2 La).
  assert (A3 := assigned_content s2 array _ (length files) (Ptr copy) (Adr (Some copy)) A2 ltac:(right; eauto)).
  assert (P3 := assigned_other s2 array (length files) (Ptr copy) p _ ltac:(auto) P2).
  assert (Ea : set_nth (map (fun q => Adr (Some q)) names ++ repeat Any (max - length files)) (length files) (Adr (Some copy))
             = map (fun q => Adr (Some q)) (names ++ [copy]) ++ repeat Any (max - length (files ++ [name]))).
  { rewrite app_length. cbn [length]. replace (max - length files) with (S (max - (length files + 1))) by lia. cbn [repeat]. rewrite map_app, <- app_assoc. cbn [map app].
    rewrite <- L. clear. generalize (repeat Any (max - (length names + 1))). intros l. induction names; cbn; auto. now rewrite IHnames. }
  rewrite Ea in A3. set (s3 := assigned s2 array (length files) (Ptr copy)) in *.
  unfold c_filelist_reset. rewrite (assign_ok s3 p _ 3 (Int 0) P3 ltac:(cbn; lia) : assign p L_ptr _ s3 = _).
  assert (P4 := assigned_content s3 p _ 3 (Int 0) (Num 0) P3 ltac:(left; reflexivity)). cbn [set_nth] in P4.
  assert (A4 := assigned_other s3 p 3 (Int 0) array _ Dist A3).
  constructor. exists (p_block p :: p_block array :: map p_block (names ++ [copy])). rewrite Eo in ND.
  assert (Old : forall b, In b own -> b < length (s_heap s)) by (intros b Ib; exact (list_own_old _ _ _ _ _ _ _ T Ib)). splits.
  - exists array, (names ++ [copy]). splits; auto; try (rewrite app_length; cbn [length]; lia).
    + change (s_heap (assigned s3 p 3 (Int 0))) with (s_heap s2). rewrite H2. apply Forall2_app.
      * eapply Forall2_impl; [|exact F]. cbn. intros q f (O & C). split; [exact O|now apply cstr_old].
      * constructor; [|constructor]. apply (string_in_new (s_heap s) name). eapply cstr_at_nonul. exact Cd.
    + rewrite map_app. change (p_block p :: p_block array :: map p_block names ++ map p_block [copy]) with ((p_block p :: p_block array :: map p_block names) ++ [p_block copy]).
      apply NoDup_app_intro; auto.
      * constructor; [easy|constructor].
      * intros b I [<-|[]]. rewrite <- Eo in I. apply Old in I. cbn in I. lia.
  - unfold moves. splits.
    + intros b Lb Nb. assert (b <> p_block p /\ b <> p_block array) as (N1 & N2) by (split; intros ->; apply Nb; rewrite Eo; [now left|right; now left]).
      split; [change (s_heap (assigned s3 p 3 (Int 0))) with (s_heap s2); rewrite H2; now apply nth_error_app1|].
      transitivity (s_words s3 b); [now apply update_other|]. transitivity (s_words s2 b); [now apply update_other|]. now apply W2.
    + intros b I. rewrite map_app in I. change (p_block p :: p_block array :: map p_block names ++ map p_block [copy]) with ((p_block p :: p_block array :: map p_block names) ++ [p_block copy]) in I.
      apply in_app_iff in I as [I|[<-|[]]]; [left; now rewrite Eo|right; cbn; lia].
    + change (s_heap (assigned s3 p 3 (Int 0))) with (s_heap s2). rewrite H2, app_length. lia.
    + change (s_heap (assigned s3 p 3 (Int 0))) with (s_heap s2). rewrite H2, live_app, live_one, Eo. cbn [length]. rewrite !map_length, app_length. cbn [length]. lia.
  - rewrite Eo. cbn [length]. rewrite !map_length, app_length. cbn [length]. lia.
  - change (s_heap (assigned s3 p 3 (Int 0))) with (s_heap s2). rewrite H2, size_app. unfold string_block. rewrite size_one, app_length, map_length. cbn [length]. lia.
Qed.

Theorem list_put s p files cursor own max d name : list_at s p files max cursor own ->
  cstr_at (s_heap s) d name -> ~ In (p_block d) own -> fits name -> (Z.of_nat (roomier files max) <= int_max)%Z ->
  ends (fun h k => (k = (8 * N.of_nat (roomier files max))%N \/ k = (strlen name + 1)%N) /\
                   heap_size h + N.to_nat k <= heap_size (s_heap s) + 8 * roomier files max + (length name + 1))
       (fun (_ : unit) s' => exists own', list_at s' p (files ++ [name]) (roomier files max) 0 own' /\ moves own own' s s' /\ length own' = S (length own) /\
          heap_size (s_heap s') <= heap_size (s_heap s) + 8 * roomier files max + (length name + 1))
       (c_filelist_put (Some p) d s).
Proof.
  intros T Cd Nd Fd Le. pose proof T as (array & names & CP & CA & F & Eo & ND & B & M). unfold c_filelist_put, roomier in *.
  step (int_at_ok _ _ _ 2 _ CP eq_refl : int_at p L_count s = _). step (int_at_ok _ _ _ 1 _ CP eq_refl : int_at p L_max s = _).
  rewrite of_nat_eqb. destruct (Nat.eqb_spec (length files) max) as [Fu|Nf].
  - eapply ends_bind.
    { eapply ends_weaken; [apply (grow_ok s p files cursor own max T Fu Le)| |intros a s' HQ; exact HQ]. intros h k (-> & ->). split; [now left|lia]. }
    intros [] s1 (own1 & T1 & Mv & Ln & Sz). eapply ends_weaken; [apply (add_ok s1 p files cursor own1 (max + 16) d name T1); auto; [lia|]| |].
    + destruct Cd as (cells & rest & N & Sk). exists cells, rest. split; [|exact Sk]. rewrite <- N. apply (proj1 Mv); [|exact Nd]. apply nth_error_Some. now rewrite N.
    + intros h k (-> & ->). split; [now right|unfold strlen; lia].
    + intros [] s2 (own2 & T2 & Mv2 & Ln2 & Sz2). exists own2. splits; auto; [|congruence|lia]. now apply (moves_trans own own1 own2 s s1 s2).
  - rewrite wbind_ret. eapply ends_weaken; [apply (add_ok s p files cursor own max d name T); auto; lia| |].
    + intros h k (-> & ->). split; [now right|unfold strlen; lia].
    + intros [] s2 (own2 & T2 & Mv2 & Ln2 & Sz2). exists own2. splits; auto. lia.
Qed.

Theorem list_put_overflow s p files cursor own max d : list_at s p files max cursor own -> length files = max -> (int_max < Z.of_nat max + 16)%Z ->
  c_filelist_put (Some p) d s = quietly (UB IntOverflow).
Proof.
  intros T Fu Gt. pose proof T as (array & names & CP & CA & F & Eo & ND & B & M). unfold c_filelist_put.
  step (int_at_ok _ _ _ 2 _ CP eq_refl : int_at p L_count s = _). step (int_at_ok _ _ _ 1 _ CP eq_refl : int_at p L_max s = _).
  rewrite of_nat_eqb. apply Nat.eqb_eq in Fu as ->. unfold c_filelist_grow. rewrite wbind_assoc. step (int_at_ok _ _ _ 1 _ CP eq_refl : int_at p L_max s = _).
  unfold int_sum. change (Z.of_nat FILELIST_CHUNK) with 16%Z. destruct (Z.leb_spec (Z.of_nat max + 16) int_max); [lia|]. reflexivity.
Qed.

(** ** The end of a list *)

Lemma list_free_rounds w p files names array max z : length names = length files ->
  forall n fuel i h, length files - i = n -> i <= length files -> n < fuel ->
  content (mkStore h w) p [Adr (Some array); Num (Z.of_nat max); Num (Z.of_nat (length files)); Num z] ->
  content (mkStore h w) array (map (fun q => Adr (Some q)) names ++ repeat Any (max - length files)) ->
  NoDup (p_block p :: p_block array :: map p_block (skipn i names)) ->
  Forall2 (fun q f => p_off q = 0 /\ cstr_at h q f) (skipn i names) (skipn i files) ->
  wrounds fuel (fun i =>
                let$ count := int_at p L_count in
                if (i <? count)%Z then
                  let$ files := c_files p in
                  let$ j := index i in
                  let$ f := ptr_at files j in
                  let$ _ := (match f with Some f => bytes (free f) | None => wret tt end) in
                  wret (inl (i + 1)%Z)
                else wret (inr tt)) (Z.of_nat i) (mkStore h w) = done (tt, mkStore (free_all (map p_block (skipn i names)) h) w).
Proof.
  intros L. induction n as [|n IH]; intros fuel i h En Le Lt CP CA ND F; (destruct fuel as [|fuel]; [lia|]); cbn [wrounds];
    rewrite wbind_assoc; step (int_at_ok _ _ _ 2 _ CP eq_refl : int_at p L_count _ = _); rewrite of_nat_ltb.
  - replace (i <? length files) with false by (symmetry; apply Nat.ltb_ge; lia). rewrite wbind_ret.
    rewrite skipn_all2 by lia. reflexivity.
  - assert (I : i < length files) by lia. pose proof I as I'. apply Nat.ltb_lt in I' as ->.
    rewrite wbind_assoc. step (files_ok _ p _ array CP eq_refl). rewrite wbind_assoc. step (index_ok i (mkStore h w)).
    destruct (skipn i names) as [|d drest] eqn:Sd.
    { apply (f_equal (@length _)) in Sd. rewrite skipn_length in Sd. cbn in Sd. lia. }
    destruct (skipn i files) as [|f frest] eqn:Sf.
    { apply (f_equal (@length _)) in Sf. rewrite skipn_length in Sf. cbn in Sf. lia. }
    destruct (skipn_nth _ _ _ _ Sd) as (Nd & DRest). destruct (skipn_nth _ _ _ _ Sf) as (_ & FRest).
    assert (St : p_off d = 0 /\ cstr_at h d f) by (inversion F; assumption).
    assert (F' : Forall2 (fun q f => p_off q = 0 /\ cstr_at h q f) drest frest) by (inversion F; assumption). clear F.
    rewrite wbind_assoc. step (ptr_at_ok _ array _ i (Some d) CA (slot_values _ _ _ _ Nd)).
    destruct St as (O & Cd). pose proof Cd as (cells & tail & Nn & _). destruct d as [b o]. cbn in O, Nn. subst o.
    rewrite wbind_assoc. step (wfree_ok (mkStore h w) b cells Nn). cbn [s_heap s_words]. rewrite wbind_ret.
    cbn [map p_block] in *.
    assert (Np : b <> p_block p). { intros ->. apply NoDup_cons_iff in ND as (X & _). apply X. right. now left. }
    assert (Na : b <> p_block array). { intros ->. apply NoDup_cons_iff in ND as (_ & ND). apply NoDup_cons_iff in ND as (X & _). apply X. now left. }
    replace (Z.of_nat i + 1)%Z with (Z.of_nat (i + 1)) by lia. rewrite IH; auto; try lia.
    + rewrite DRest. reflexivity.
    + apply (content_same (mkStore h w)); [cbn; now rewrite set_other|reflexivity|exact CP].
    + apply (content_same (mkStore h w)); [cbn; now rewrite set_other|reflexivity|exact CA].
    + rewrite DRest. clear - ND. apply NoDup_cons_iff in ND as (X & ND). apply NoDup_cons_iff in ND as (Y & ND). apply NoDup_cons_iff in ND as (Z & ND).
      constructor; [|constructor; [|exact ND]].
      * intros [E|J]; apply X; [now left|right; now right].
      * intros J. apply Y. now right.
    + rewrite DRest, FRest. apply NoDup_cons_iff in ND as (_ & ND). apply NoDup_cons_iff in ND as (_ & ND). apply NoDup_cons_iff in ND as (Z & _).
      clear - F' Z. induction F' as [|q f' names files (O & C) F IH]; constructor.
      * split; [exact O|]. apply cstr_set; [|exact C]. intros E. apply Z. rewrite <- E. now left.
      * apply IH. intros J. apply Z. now right.
Qed.

Theorem list_free s p files max cursor own : list_at s p files max cursor own ->
  exists h', c_filelist_free (Some p) s = done (tt, mkStore h' (s_words s)) /\ without own (s_heap s) h' /\ live h' + length own = live (s_heap s).
Proof.
  intros T. pose proof T as (array & names & CP & CA & F & Eo & ND & B & M). pose proof (Forall2_len _ _ _ F) as L.
  unfold c_filelist_free. destruct s as [h w]. cbn [s_heap s_words] in *.
  match goal with |- context[wbind (wwhile ?b ?i) ?k ?s] => assert (Mm : wwhile b i s = done (tt, mkStore (free_all (map p_block names) h) w)) end.
  { unfold wwhile. change 0%Z with (Z.of_nat 0). rewrite Eo in ND. rewrite (list_free_rounds w p files names array max (Z.of_nat cursor) L (length files)); auto; try lia.
    pose proof (content_size _ _ _ CA) as Sz. rewrite app_length, map_length in Sz. lia. }
  step Mm. clear Mm. set (h1 := free_all (map p_block names) h).
  assert (Keep : forall b, ~ In b (map p_block names) -> nth_error h1 b = nth_error h b) by (intros b Nn; now apply free_all_other).
  assert (ND1 := ND). rewrite Eo in ND1. apply NoDup_cons_iff in ND1 as (Np & ND1). apply NoDup_cons_iff in ND1 as (Na & _).
  assert (CP1 : content (mkStore h1 w) p [Adr (Some array); Num (Z.of_nat max); Num (Z.of_nat (length files)); Num (Z.of_nat cursor)]).
  { apply (content_same (mkStore h w)); [|reflexivity|exact CP]. cbn. apply Keep. intros J. apply Np. now right. }
  step (files_ok _ p _ array CP1 eq_refl).
  pose proof (list_distinct _ _ _ _ Eo ND) as Dist.
  destruct CA as (Oa & _ & ca & Nca & _). destruct array as [ba o]. cbn in Oa, Nca, Dist, Na. subst o. rewrite <- Keep in Nca by exact Na.
  step (wfree_ok (mkStore h1 w) ba ca Nca). cbn [s_heap s_words].
  destruct CP1 as (Op & _ & cp & Ncp & _). destruct p as [bp o]. cbn [p_block p_off s_heap] in Op, Ncp, Dist, Np, Eo. subst o.
  rewrite (wfree_ok (mkStore (set_block h1 ba None) w) bp cp) by (cbn; now rewrite set_other).
  cbn [s_heap s_words]. eexists. split; [reflexivity|].
  assert (E : set_block (set_block h1 ba None) bp None = free_all (map p_block names ++ [ba; bp]) h) by (rewrite free_all_app; reflexivity).
  assert (W : without own h (set_block (set_block h1 ba None) bp None)).
  { assert (Same : forall b, In b (map p_block names ++ [ba; bp]) <-> In b own).
    { intros b. rewrite Eo. cbn [p_block]. rewrite in_app_iff. cbn [In]. tauto. }
    rewrite E. apply free_all_without; [exact Same|].
    intros b I. exact (list_own_old _ _ _ _ _ _ _ T (proj1 (Same b) I)). }
  split; [exact W|]. apply (without_live own h); [exact ND| |exact W]. intros b I. exact (list_own_live _ _ _ _ _ _ _ T I).
Qed.

(** ** The life of a list *)

Definition list_in_use (s0 s : store_t) (p : ptr) (files : list str) (cursor : nat) : Prop :=
  exists max own, list_at s p files max cursor own /\ max <= Nat.max 16 (length files + 15) /\
    (forall b, b < length (s_heap s0) -> nth_error (s_heap s) b = nth_error (s_heap s0) b /\ s_words s b = s_words s0 b) /\
    (forall b, In b own -> length (s_heap s0) <= b) /\ length (s_heap s0) <= length (s_heap s) /\
    live (s_heap s) = live (s_heap s0) + length own.

Fixpoint left_to_read (text : ptr -> str) (files : list str) (cursor : nat) (l : list list_use) : list str * nat :=
  match l with
  | [] => (files, cursor)
  | Adds d :: l => left_to_read text (files ++ [text d]) 0 l
  | Reads :: l => left_to_read text files (onward files cursor) l
  | Rewinds :: l => left_to_read text files 0 l
  | Counts :: l => left_to_read text files cursor l
  end.

Lemma list_uses_in_memory s0 text l : bounded (s_heap s0) -> forall s p files cursor,
  (forall d, In (Adds d) l -> cstr_at (s_heap s0) d (text d)) -> list_in_use s0 s p files cursor -> (Z.of_nat (length files + length l + 15) <= int_max)%Z ->
  ends (fun _ _ => True)
       (fun r s' => r = list_uses text files cursor l /\ list_in_use s0 s' p (fst (left_to_read text files cursor l)) (snd (left_to_read text files cursor l)))
       (c_list_uses p l s).
Proof.
  intros Bd. induction l as [|u l IH]; intros s p files cursor Us Iu Le; cbn [c_list_uses list_uses left_to_read].
  { constructor. split; [reflexivity|exact Iu]. }
  assert (Us' : forall d, In (Adds d) l -> cstr_at (s_heap s0) d (text d)) by (intros d I; apply Us; now right).
  cbn [length] in Le. pose proof Iu as (max & own & T & Mx & Old & New & Gr & Lv).
  destruct u as [d| | |].
  - pose proof (Us d (or_introl eq_refl)) as Cd.
    assert (Cd' : cstr_at (s_heap s) d (text d)).
    { destruct Cd as (cells & rest & N & Sk). exists cells, rest. split; [|exact Sk]. rewrite <- N. apply Old. apply nth_error_Some. now rewrite N. }
    assert (Rm : roomier files max <= Nat.max 16 (length (files ++ [text d]) + 15) /\ (Z.of_nat (roomier files max) <= int_max)%Z).
    { unfold roomier. rewrite app_length. cbn [length]. destruct (Nat.eqb_spec (length files) max); unfold int_max in *; lia. }
    eapply ends_bind.
    { eapply ends_weaken; [apply (list_put s p files cursor own max d (text d) T Cd')| |intros a s' HQ; exact HQ]; try easy.
      - intros I. apply New in I. pose proof (cstr_live _ _ _ Cd). lia.
      - apply (bounded_fits (s_heap s0) d); auto. }
    intros [] s' (own' & T' & (Mv1 & Mv2 & Mv3 & Mv4) & Ln). apply IH; auto.
    + exists (roomier files max), own'. splits; auto; try lia.
      * intros b Lb. destruct (Old b Lb) as (E1 & E2). destruct (Mv1 b ltac:(lia)) as (E3 & E4); [|split; congruence]. intros I. apply New in I. lia.
      * intros b I. apply Mv2 in I as [I|I]; [auto|lia].
    + rewrite app_length. cbn [length]. lia.
  - destruct (list_get s p files max cursor own T) as (q & s' & G & St & T' & H' & Sb). step G.
    assert (A : (match q with Some q => let$ x := bytes (c_read q) in wret (Some x) | None => wret None end) s' = done (nth_error files cursor, s')).
    { destruct q as [q|], (nth_error files cursor) as [x|]; cbn [string_in] in St; try easy. destruct St as (_ & C).
      rewrite (wbind_done _ _ _ _ _ (bytes_done _ _ _ _ (read_ok _ _ _ C))). destruct s'. reflexivity. }
    step A. eapply ends_bind.
    { apply (IH s' p files (onward files cursor) Us'); [|lia]. exists max, own. rewrite H'. splits; auto.
      intros b Lb. destruct (Old b Lb) as (E1 & E2). split; [exact E1|]. rewrite Sb; [exact E2|]. intros [<-|[]].
      destruct T as (array & names & _ & _ & _ & Eo & _). specialize (New (p_block p)). rewrite Eo in New. specialize (New (or_introl eq_refl)). lia. }
    intros r s2 (-> & I2). constructor. split; [reflexivity|exact I2].
  - destruct (list_reset s p files max cursor own T) as (s' & G & T' & H' & Sb). step G. apply IH; auto; [|lia].
    exists max, own. rewrite H'. splits; auto.
    intros b Lb. destruct (Old b Lb) as (E1 & E2). split; [exact E1|]. rewrite Sb; [exact E2|]. intros [<-|[]].
    destruct T as (array & names & _ & _ & _ & Eo & _). specialize (New (p_block p)). rewrite Eo in New. specialize (New (or_introl eq_refl)). lia.
  - step (list_count s p files max cursor own T). eapply ends_bind.
    { apply (IH s p files cursor Us' Iu). lia. }
    intros r s2 (-> & I2). constructor. split; [reflexivity|exact I2].
Qed.

Theorem list_life s text l : bounded (s_heap s) -> (forall d, In (Adds d) l -> cstr_at (s_heap s) d (text d)) -> (Z.of_nat (length l + 15) <= int_max)%Z ->
  ends (fun _ _ => True)
       (fun r s' => r = list_uses text [] 0 l /\ (forall b, b < length (s_heap s) -> s_words s' b = s_words s b) /\
          exists more, s_heap s' = s_heap s ++ repeat None more)
       (c_list_life l s).
Proof.
  intros Bd Us Le. unfold c_list_life. eapply ends_bind.
  { eapply ends_weaken; [apply (list_init s)|easy|intros a s' HQ; exact HQ]. }
  intros p s1 (-> & T & H1 & Sb). eapply ends_bind.
  { apply (list_uses_in_memory s text l Bd s1 _ [] 0 Us); [|cbn [length Nat.add]; exact Le]. exists 16, [length (s_heap s); S (length (s_heap s))]. splits; auto; try (cbn; lia).
    - intros b Lb. split; [rewrite H1; now apply nth_error_app1|]. apply Sb. intros [<-|[<-|[]]]; lia.
    - rewrite H1, app_length. lia.
    - rewrite H1, live_app. reflexivity. }
  intros r s2 (-> & max & own & T2 & _ & Old & New & Gr & Lv).
  destruct (list_free s2 _ _ _ _ _ T2) as (h3 & Fr & Wo & Lf). step Fr. constructor. splits; auto.
  - intros b Lb. now apply Old.
  - assert (E : h3 = s_heap s ++ skipn (length (s_heap s)) h3).
    { apply nth_error_ext. intros i. destruct (Nat.lt_ge_cases i (length (s_heap s))) as [Lt|Ge].
      - rewrite nth_error_app1 by exact Lt. rewrite (proj2 Wo i). destruct (in_dec Nat.eq_dec i own) as [I|_]; [apply New in I; lia|]. now apply Old.
      - rewrite nth_error_app2 by exact Ge. rewrite nth_skipn. f_equal. lia. }
    assert (Dead : forall l : heap, live l = 0 -> l = repeat None (length l)).
    { induction l0 as [|[x|] l0 IH]; intros Z; [reflexivity|discriminate|]. cbn [length repeat]. f_equal. apply IH. exact Z. }
    exists (length (skipn (length (s_heap s)) h3)). cbn [s_heap]. rewrite <- Dead; [exact E|].
    rewrite E, live_app in Lf. lia.
Qed.

Theorem freed_list s p files max cursor own name : list_at s p files max cursor own ->
  exists s', c_filelist_free (Some p) s = done (tt, s') /\
    c_filelist_free (Some p) s' = quietly (UB BadPointer) /\ c_filelist_get (Some p) s' = quietly (UB BadPointer) /\
    c_filelist_put (Some p) name s' = quietly (UB BadPointer) /\ c_filelist_count (Some p) s' = quietly (UB BadPointer).
Proof.
  intros T. destruct (list_free s p files max cursor own T) as (h' & Fr & (_ & Wo) & _). eexists. split; [exact Fr|].
  assert (E : nth_error (s_heap (mkStore h' (s_words s))) (p_block p) = Some None).
  { cbn [s_heap]. rewrite Wo. destruct (in_dec Nat.eq_dec (p_block p) own) as [|Ni]; [reflexivity|]. exfalso. apply Ni.
    destruct T as (array & names & _ & _ & _ & -> & _). now left. }
  splits.
  - unfold c_filelist_free. unfold wbind at 1, wwhile. cbn [wrounds]. rewrite wbind_assoc, (freed_int _ _ _ _ E). reflexivity.
  - now apply freed_int.
  - now apply freed_int.
  - unfold c_filelist_count, int_at. now apply freed_fails.
Qed.

End memory.
