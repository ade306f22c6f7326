(** * Tables can be in memory *)

From Verif Require Import Base BaseFacts Stdio Table BuiltinTables Prog Warnings Mem MemSpec MemFacts Words WordsSpec WordsFacts CTableProofs CTableProofs2 CConfigProofs CReview CReviewSpec CReviewProofs.

Local Open Scope nat_scope.

(** A table at the end of memory: its members, its rows, its texts *)
Definition text_block (x : option str) : option (list cell) := string_block (match x with Some x => x | None => [] end).

Definition text_ptr (b : nat) (x : option str) : option ptr := match x with Some _ => Some (mkPtr b 0) | None => None end.

Fixpoint text_ptrs (b : nat) (rows : list row) : list (option ptr) :=
  match rows with [] => [] | r :: rows => text_ptr b (r_data r) :: text_ptrs (S b) rows end.

Definition word_for (v : value) : option word :=
  match v with Num z => Some (Int z) | Adr None => Some Zero | Adr (Some p) => Some (Ptr p) | Any => None end.

Definition placed (s : store_t) (t : table) : store_t :=
  let b := length (s_heap s) in
  mkStore (s_heap s ++ Some (repeat None 64) :: Some (repeat None (16 * length (t_rows t))) :: text_block (t_default t) :: map (fun r => text_block (r_data r)) (t_rows t))
    (fun i => if i =? b then map word_for (table_values t (mkCounters 0 0 0) (text_ptr (b + 2) (t_default t)) (Some (mkPtr (b + 1) 0)))
              else if i =? b + 1 then map word_for (row_values (t_rows t) (text_ptrs (b + 3) (t_rows t)))
              else s_words s i).

Lemma words_for vs : Forall2 stands_for (map word_for vs) vs.
Proof. induction vs as [|[z|[p|]|] vs IH]; cbn; constructor; cbn; eauto. Qed.

Definition texts_nonul (t : table) : Prop :=
  (forall x, t_default t = Some x -> nonul x) /\ forall r x, In r (t_rows t) -> r_data r = Some x -> nonul x.

Lemma text_there h b x : nth_error h b = Some (text_block x) -> (forall y, x = Some y -> nonul y) -> text_in h (text_ptr b x) x.
Proof.
  intros E N. destruct x as [x|]; [|exact I]. cbn. exists (map Some x ++ [Some NUL]), []. splits; auto.
Qed.

Theorem placed_seen s t : in_range t -> texts_nonul t -> exists c own, table_seen (placed s t) (mkPtr (length (s_heap s)) 0) t c own /\ extends s (placed s t).
Proof.
  intros R (Nd & Nr). set (b := length (s_heap s)). exists (mkCounters 0 0 0). eexists. split.
  - exists (mkPtr (b + 1) 0), (text_ptrs (b + 3) (t_rows t)), (text_ptr (b + 2) (t_default t)). splits; auto.
    + split; [reflexivity|]. split.
      * cbn [p_block placed s_words]. fold b. rewrite Nat.eqb_refl. apply words_for.
      * exists (repeat None 64). cbn [p_block placed s_heap]. split; [|cbn; lia]. rewrite nth_error_app2, Nat.sub_diag by (fold b; lia). reflexivity.
    + split; [reflexivity|]. split.
      * cbn [p_block placed s_words]. fold b. replace (b + 1 =? b) with false by (symmetry; apply Nat.eqb_neq; lia). rewrite Nat.eqb_refl. apply words_for.
      * exists (repeat None (16 * length (t_rows t))). cbn [p_block placed s_heap]. split.
        -- rewrite nth_error_app2 by (fold b; lia). fold b. replace (b + 1 - b) with 1 by lia. reflexivity.
        -- rewrite repeat_length. assert (L : forall rows k, length (row_values rows (text_ptrs k rows)) = 2 * length rows) by (induction rows as [|r rows IH]; intros k; cbn; [reflexivity|rewrite IH; lia]).
           rewrite L. lia.
    + assert (G : forall rows k h, (forall i r, nth_error rows i = Some r -> nth_error h (k + i) = Some (text_block (r_data r))) -> (forall r x, In r rows -> r_data r = Some x -> nonul x) ->
        Forall2 (fun d r => text_in h d (r_data r)) (text_ptrs k rows) rows).
      { induction rows as [|r rows IH]; intros k h E N; cbn [text_ptrs]; constructor.
        - apply text_there; [rewrite <- (E 0 r eq_refl); f_equal; lia|]. intros y Ey. apply (N r y (or_introl eq_refl) Ey).
        - apply IH; [|intros r' x I; apply N; now right]. intros i r' Er. rewrite <- (E (S i) r' Er). f_equal. lia. }
      apply G; [|exact Nr]. intros i r E. cbn [placed s_heap]. rewrite nth_error_app2 by (fold b; lia). fold b. replace (b + 3 + i - b) with (S (S (S i))) by lia. cbn [nth_error]. now rewrite nth_error_map, E.
    + apply text_there; [|exact Nd]. cbn [placed s_heap]. rewrite nth_error_app2 by (fold b; lia). fold b. replace (b + 2 - b) with 2 by lia. reflexivity.
  - split; [eexists; reflexivity|]. intros i L. cbn [placed s_words]. fold b in L |- *.
    replace (i =? b) with false by (symmetry; apply Nat.eqb_neq; lia). replace (i =? b + 1) with false by (symmetry; apply Nat.eqb_neq; lia). reflexivity.
Qed.

Lemma static_in_range x : in_range (static_value x).
Proof.
  assert (X : forall t, (0 <? length (t_rows t)) && (Z.of_nat (length (t_rows t)) <=? int_max)%Z && (t_used t <=? length (t_rows t)) && (Z.of_nat (t_maxdata t) <=? int_max)%Z && (t_maxkey t <? 2 ^ 32)%N &&
    forallb (fun r => (0 <? r_key r)%N && (r_key r <? 2 ^ 32)%N && match r_data r with Some d => length d <=? t_maxdata t | None => false end) (t_rows t) = true -> in_range t).
  { intros t E. rewrite !andb_true_iff, forallb_forall in E. destruct E as (((((E1 & E2) & E3) & E4) & E5) & E6).
    apply Nat.ltb_lt in E1. apply Z.leb_le in E2. apply Nat.leb_le in E3. apply Z.leb_le in E4. apply N.ltb_lt in E5. unfold in_range. splits; auto.
    - apply Forall_forall. intros r I. specialize (E6 r I). rewrite !andb_true_iff in E6. destruct E6 as ((A & B) & C). apply N.ltb_lt in A, B. split; [exact B|]. destruct (r_data r); [|discriminate]. split; [lia|discriminate].
    - intros r d I Ed. specialize (E6 r I). rewrite !andb_true_iff, Ed in E6. destruct E6 as (_ & C). now apply Nat.leb_le. }
  apply X. destruct x; vm_compute; reflexivity.
Qed.

Lemma static_nonul x : texts_nonul (static_value x).
Proof.
  assert (X : forall t, match t_default t with Some d => forallb (fun c => negb (beq c NUL)) d | None => true end = true -> forallb (fun r => match r_data r with Some d => forallb (fun c => negb (beq c NUL)) d | None => true end) (t_rows t) = true -> texts_nonul t).
  { intros t D E. split; [intros x0 Ex; rewrite Ex in D; now apply nonul_dec|]. intros r x0 I Ex. rewrite forallb_forall in E. specialize (E r I). rewrite Ex in E. apply nonul_dec. exact E. }
  apply X; destruct x; vm_compute; reflexivity.
Qed.

(** All of them *)
Definition all_placed (s : store_t) : store_t :=
  placed (placed (placed (placed s builtin_safe_table) builtin_iso8859_1_table) builtin_unicode_table) builtin_cp1252_table.

Definition static_at (s : store_t) (x : static_table) : ptr :=
  mkPtr (match x with
         | Static_safe => length (s_heap s)
         | Static_iso8859_1 => length (s_heap (placed s builtin_safe_table))
         | Static_unicode => length (s_heap (placed (placed s builtin_safe_table) builtin_iso8859_1_table))
         | Static_cp1252 => length (s_heap (placed (placed (placed s builtin_safe_table) builtin_iso8859_1_table) builtin_unicode_table))
         end) 0.

Theorem all_placed_statics s : statics_in (all_placed s) (static_at s) [] /\ extends s (all_placed s).
Proof.
  assert (P : forall s x, exists c own, table_seen (placed s (static_value x)) (mkPtr (length (s_heap s)) 0) (static_value x) c own /\ extends s (placed s (static_value x)))
    by (intros s' x; apply placed_seen; [apply static_in_range|apply static_nonul]).
  destruct (P s Static_safe) as (c1 & o1 & T1 & E1). set (s1 := placed s (static_value Static_safe)) in *.
  destruct (P s1 Static_iso8859_1) as (c2 & o2 & T2 & E2). set (s2 := placed s1 (static_value Static_iso8859_1)) in *.
  destruct (P s2 Static_unicode) as (c3 & o3 & T3 & E3). set (s3 := placed s2 (static_value Static_unicode)) in *.
  destruct (P s3 Static_cp1252) as (c4 & o4 & T4 & E4). set (s4 := placed s3 (static_value Static_cp1252)) in *.
  change (all_placed s) with s4. assert (E24 : extends s2 s4) by (eapply extends_trans; eauto). assert (E14 : extends s1 s4) by (eapply extends_trans; eauto).
  assert (K : forall a x p t c o, extends a s4 -> table_seen a p t c o -> p = static_at s x -> t = static_value x -> exists c o, table_seen s4 (static_at s x) (static_value x) c o /\ forall b, In b o -> ~ In b []).
  { intros a x p t c o E T -> ->. exists c, o. split; [|intros b _ []]. apply (table_seen_same a); [|exact T]. intros b I. exact (extends_at _ _ _ E (seen_old _ _ _ _ _ _ T I)). }
  split; [|eapply extends_trans; eauto]. intros x. destruct x.
  - exact (K _ Static_safe _ _ _ _ E14 T1 eq_refl eq_refl).
  - exact (K _ Static_iso8859_1 _ _ _ _ E24 T2 eq_refl eq_refl).
  - exact (K _ Static_unicode _ _ _ _ E4 T3 eq_refl eq_refl).
  - exact (K _ Static_cp1252 _ _ _ _ (extends_refl _) T4 eq_refl eq_refl).
Qed.
