(** * Proofs about the built-in configuration in memory *)

From Coq Require Import Permutation.
From Verif Require Import Base BaseFacts Stdio StdioFacts Filter Spoof ConfigSpec Prog Warnings
  Mem MemSpec MemFacts Words WordsSpec WordsFacts CTableProofs CTableProofs2 CFilelist FilesSpec CFilelistProofs CConfig LinkedSpec CConfigProofs CConfigProofs2 CConfigProofs7 CLoad CLoadSpec.

Local Open Scope nat_scope.

(** ** Memory behind other memory *)

(** A structure or a string *)
Inductive item := Rec (size : nat) (vs : list value) | Text (x : str).

Definition item_block (i : item) : option (list cell) :=
  match i with Rec n _ => blank (N.of_nat n) | Text x => string_block x end.
Definition item_size (i : item) : nat := match i with Rec n _ => n | Text x => length x + 1 end.
Definition items_size (l : list item) : nat := list_sum (map item_size l).

(** The store [s]: [s0] and these *)
Definition arena (s0 : store_t) (l : list item) (s : store_t) : Prop :=
  s_heap s = s_heap s0 ++ map item_block l /\
  (forall b, b < length (s_heap s0) -> s_words s b = s_words s0 b) /\
  forall k n vs, nth_error l k = Some (Rec n vs) -> Forall2 stands_for (s_words s (length (s_heap s0) + k)) vs /\ length vs <= n.

Definition adr (s0 : store_t) (k : nat) : ptr := mkPtr (length (s_heap s0) + k) 0.

Lemma items_heap l : heap_size (map item_block l) = items_size l.
Proof.
  induction l as [|i l IH]; [reflexivity|]. cbn [map]. change (item_block i :: map item_block l) with ([item_block i] ++ map item_block l). rewrite size_app, IH.
  unfold items_size. cbn [map list_sum fold_right]. f_equal. destruct i as [n vs|x]; cbn [item_block item_size]; unfold blank, string_block; rewrite size_one.
  - now rewrite repeat_length, Nat2N.id.
  - rewrite app_length, map_length. reflexivity.
Qed.

Lemma arena_size s0 l s : arena s0 l s -> heap_size (s_heap s) = heap_size (s_heap s0) + items_size l.
Proof. intros (E & _). now rewrite E, size_app, items_heap. Qed.

Lemma arena_length s0 l s : arena s0 l s -> length (s_heap s) = length (s_heap s0) + length l.
Proof. intros (E & _). now rewrite E, app_length, map_length. Qed.

Lemma arena_block s0 l s k i : arena s0 l s -> nth_error l k = Some i -> nth_error (s_heap s) (length (s_heap s0) + k) = Some (item_block i).
Proof. intros (E & _) N. rewrite E, nth_error_app2 by lia. replace (length (s_heap s0) + k - length (s_heap s0)) with k by lia. now apply map_nth_error. Qed.

Lemma arena_content s0 l s k n vs : arena s0 l s -> nth_error l k = Some (Rec n vs) -> content s (adr s0 k) vs.
Proof.
  intros A N. pose proof (arena_block _ _ _ _ _ A N) as B. destruct A as (_ & _ & W). destruct (W _ _ _ N) as (F & L). split; [reflexivity|]. split; [exact F|].
  cbn [adr p_block]. rewrite B. cbn [item_block]. eexists. split; [reflexivity|]. now rewrite repeat_length, Nat2N.id.
Qed.

Lemma arena_text s0 l s k x : arena s0 l s -> nth_error l k = Some (Text x) -> nonul x -> string_in (s_heap s) (Some (adr s0 k)) (Some x).
Proof.
  intros A N X. pose proof (arena_block _ _ _ _ _ A N) as B. split; [reflexivity|]. exists (map Some x ++ [Some NUL]), []. cbn [adr p_block p_off]. rewrite B.
  splits; auto.
Qed.

Lemma arena_nil s : arena s [] s.
Proof. split; [symmetry; apply app_nil_r|]. split; [auto|]. intros [|k] n vs E; discriminate. Qed.

Lemma arena_new s0 l s s' n vs : arena s0 l s -> s_heap s' = s_heap s ++ [blank (N.of_nat n)] -> same_but [length (s_heap s)] s s' ->
  content s' (mkPtr (length (s_heap s)) 0) vs -> arena s0 (l ++ [Rec n vs]) s'.
Proof.
  intros A H Sb C. pose proof (arena_length _ _ _ A) as L. destruct A as (E & W & F). split; [rewrite H, E, map_app, app_assoc; reflexivity|]. split.
  - intros b Lb. rewrite Sb; [now apply W|]. cbn. lia.
  - intros k m ws N. destruct (Nat.lt_ge_cases k (length l)) as [Lk|Lk].
    + rewrite nth_error_app1 in N by exact Lk. rewrite Sb by (cbn; lia). now apply F.
    + rewrite nth_error_app2 in N by exact Lk. destruct (k - length l) as [|j] eqn:Ek; [|destruct j; discriminate]. cbn in N. injection N as <- <-.
      destruct C as (_ & Fv & cells & Nc & Lc). cbn [p_block] in *. replace (length (s_heap s0) + k) with (length (s_heap s)) by lia. split; [exact Fv|].
      rewrite H, nth_error_app2, Nat.sub_diag in Nc by lia. cbn in Nc. injection Nc as <-. rewrite repeat_length, Nat2N.id in Lc. exact Lc.
Qed.

Lemma arena_string s0 l s x : arena s0 l s -> arena s0 (l ++ [Text x]) (grow s [string_block x]).
Proof.
  intros (E & W & F). split; [cbn; now rewrite E, map_app, app_assoc|]. split; [exact W|]. intros k m ws N. destruct (Nat.lt_ge_cases k (length l)) as [Lk|Lk].
  - rewrite nth_error_app1 in N by exact Lk. now apply F.
  - rewrite nth_error_app2 in N by exact Lk. destruct (k - length l) as [|[|j]]; discriminate.
Qed.

Lemma arena_assign s0 l s k n vs i w v : arena s0 l s -> nth_error l k = Some (Rec n vs) -> i < length vs -> stands_for (Some w) v ->
  assign (adr s0 k) i w s = done (tt, assigned s (adr s0 k) i w) /\ arena s0 (set_nth l k (Rec n (set_nth vs i v))) (assigned s (adr s0 k) i w).
Proof.
  intros A N L S. pose proof (arena_content _ _ _ _ _ _ A N) as C. split; [exact (assign_ok _ _ _ _ _ C L)|].
  destruct A as (E & W & F). split; [|split].
  - cbn [assigned s_heap]. rewrite E. f_equal. clear - N. revert k N. induction l as [|x l IH]; intros [|k] N; cbn in *; try discriminate; auto.
    + injection N as ->. reflexivity.
    + f_equal. now apply IH.
  - intros b Lb. cbn [assigned s_words adr p_block]. rewrite update_other by lia. now apply W.
  - intros j m ws Nj. cbn [assigned s_words adr p_block]. destruct (Nat.eq_dec j k) as [->|D].
    + rewrite set_nth_same in Nj by (apply nth_error_Some; congruence). injection Nj as <- <-. rewrite update_same, set_nth_length. destruct (F _ _ _ N) as (Fv & Lv).
      split; [now apply Forall2_set|exact Lv].
    + rewrite set_nth_other in Nj by congruence. rewrite update_other by lia. now apply F.
Qed.

(** ** The parts *)

Section spoof.

Context {al : allocator} (literal : str -> ptr) (s0 : store_t) (room : nat).

Definition in_room (h : heap) (n : N) : Prop := heap_size h + N.to_nat n <= heap_size (s_heap s0) + room.

Notation new_filter c b t := (Rec 56 [Adr None; Num (cleaner_code c); Adr None; Adr b; Num t; Num 0; Adr None]) (only parsing).

Lemma new_filter_ok l s c : arena s0 l s -> items_size l + 56 <= room ->
  ends in_room (fun p s' => p = adr s0 (length l) /\ arena s0 (l ++ [new_filter c None 0%Z]) s') (c_filter_init (cleaner_code c) s).
Proof.
  intros A Rm. eapply ends_weaken; [apply filter_init_ok| |].
  - intros h n (-> & ->). unfold in_room. rewrite (arena_size _ _ _ A). change (N.to_nat 56) with 56. lia.
  - intros p s' (-> & H & Sb & C). rewrite (arena_length _ _ _ A) in *. split; [reflexivity|].
    apply (arena_new _ _ s); auto; rewrite (arena_length _ _ _ A); auto.
Qed.

Lemma literal_strdup l s x : arena s0 l s -> items_size l + (length x + 1) <= room -> cstr_at (s_heap s0) (literal x) x -> fits x ->
  ends in_room (fun p s' => p = adr s0 (length l) /\ arena s0 (l ++ [Text x]) s') (bytes (c_strdup (literal x)) s).
Proof.
  intros A Rm Cx Fx. eapply ends_weaken; [apply (strdup_ok s (literal x) x)| |].
  - destruct A as (-> & _). now apply cstr_old.
  - exact Fx.
  - intros h n (-> & ->). unfold in_room. rewrite (arena_size _ _ _ A). unfold strlen. lia.
  - intros p s' (-> & -> & _). rewrite (arena_length _ _ _ A). split; [reflexivity|]. now apply arena_string.
Qed.

Lemma set_last_item {A} (l : list A) a b r : set_nth (l ++ a :: r) (length l) b = l ++ b :: r.
Proof. induction l; cbn; auto. now f_equal. Qed.

Lemma nth_new {A} (l : list A) a r : nth_error (l ++ a :: r) (length l) = Some a.
Proof. induction l; cbn; auto. Qed.

Lemma size_items l r : items_size (l ++ r) = items_size l + items_size r.
Proof. unfold items_size. now rewrite map_app, list_sum_app. Qed.

(** Give the last structure with a string its address. *)
Lemma tie_ok l s n vs x i j : arena s0 ((l ++ [Rec n vs]) ++ [Text x]) s -> j = length (l ++ [Rec n vs]) -> i < length vs ->
  exists s', assign (adr s0 (length l)) i (Ptr (adr s0 j)) s = done (tt, s') /\ arena s0 (l ++ [Rec n (set_nth vs i (Adr (Some (adr s0 j)))); Text x]) s'.
Proof.
  intros A -> L. rewrite <- app_assoc in A. cbn [app] in A.
  destruct (arena_assign _ _ _ (length l) n vs i (Ptr (adr s0 (length (l ++ [Rec n vs])))) (Adr (Some (adr s0 (length (l ++ [Rec n vs]))))) A (nth_new _ _ _) L) as (E & A').
  { cbn. eauto. }
  rewrite set_last_item in A'. eauto.
Qed.

Lemma builtin_filter_ok l s c x : arena s0 l s -> items_size l + 56 + (length x + 1) <= room -> cstr_at (s_heap s0) (literal x) x -> fits x ->
  ends in_room (fun p s' => p = adr s0 (length l) /\ arena s0 (l ++ [new_filter c (Some (adr s0 (S (length l)))) 0%Z; Text x]) s') (c_generate_builtin_filter literal c x s).
Proof.
  intros A Rm Cx Fx. unfold c_generate_builtin_filter. eapply ends_bind; [apply (new_filter_ok l s c A); lia|]. intros p s1 (-> & A1).
  eapply ends_bind; [apply (literal_strdup _ s1 x A1); auto; rewrite size_items; change (items_size [new_filter c None 0%Z]) with 56; lia|]. intros q s2 (-> & A2).
  destruct (tie_ok _ _ _ _ _ 3 _ A2 eq_refl ltac:(cbn; lia)) as (s3 & E & A3). step (E : assign (adr s0 (length l)) FT_builtin _ s2 = _). constructor. split; [reflexivity|].
  rewrite app_length in A3. cbn [length set_nth] in A3. now rewrite Nat.add_1_r in A3.
Qed.

Lemma plain_filter_ok l s c : arena s0 l s -> items_size l + 56 <= room -> cleaner_code c <> 4%Z ->
  ends in_room (fun p s' => p = adr s0 (length l) /\ arena s0 (l ++ [new_filter c None 0%Z]) s') (c_generate_filter literal c s).
Proof.
  intros A Rm Nc. unfold c_generate_filter. eapply ends_bind; [apply (new_filter_ok l s c A); lia|]. intros p s1 (-> & A1).
  change (cleaner_code F_safe) with 4%Z. apply Z.eqb_neq in Nc as ->. now constructor.
Qed.

Lemma safe_filter_ok l s : arena s0 l s -> items_size l + 61 <= room -> cstr_at (s_heap s0) (literal (bs "safe")) (bs "safe") ->
  ends in_room (fun p s' => p = adr s0 (length l) /\ arena s0 (l ++ [new_filter F_safe (Some (adr s0 (S (length l)))) 0%Z; Text (bs "safe")]) s') (c_generate_filter literal F_safe s).
Proof. intros A Rm Cx. apply (builtin_filter_ok l s F_safe (bs "safe") A); [cbn; lia|exact Cx|reflexivity]. Qed.

Lemma wipeup_filter_ok l s t : arena s0 l s -> items_size l + 56 <= room ->
  ends in_room (fun p s' => p = adr s0 (length l) /\ arena s0 (l ++ [new_filter F_wipeup None t]) s') (c_generate_wipeup_filter t s).
Proof.
  intros A Rm. unfold c_generate_wipeup_filter. eapply ends_bind; [apply (new_filter_ok l s F_wipeup A); lia|]. intros p s1 (-> & A1).
  destruct (arena_assign _ _ _ (length l) _ _ 4 (Int t) (Num t) A1 (nth_new _ _ _) ltac:(cbn; lia) ltac:(cbn; auto)) as (E & A2).
  step (E : assign (adr s0 (length l)) FT_remove_trailing _ s1 = _). constructor. split; [reflexivity|]. now rewrite set_last_item in A2.
Qed.

Lemma config_ok l s : arena s0 l s -> items_size l + 16 <= room ->
  ends in_room (fun p s' => p = adr s0 (length l) /\ arena s0 (l ++ [Rec 16 [Adr None; Adr None]]) s') (c_config_file_init s).
Proof.
  intros A Rm. eapply ends_weaken; [apply config_init_ok| |].
  - intros h n (-> & ->). unfold in_room. rewrite (arena_size _ _ _ A). change (N.to_nat 16) with 16. lia.
  - intros p s' (-> & H & Sb & C). rewrite (arena_length _ _ _ A) in *. split; [reflexivity|].
    apply (arena_new _ _ s); auto; rewrite (arena_length _ _ _ A); auto.
Qed.

Notation source := (bs "built-in config file").

Lemma sequence_ok l s x : arena s0 l s -> items_size l + 32 + (length x + 1) + 21 <= room -> cstr_at (s_heap s0) (literal x) x -> (N.of_nat (length x) < 2 ^ 32)%N ->
  cstr_at (s_heap s0) (literal source) source ->
  ends in_room (fun p s' => p = adr s0 (length l) /\
      arena s0 (l ++ [Rec 32 [Adr None; Adr (Some (adr s0 (S (length l)))); Adr None; Adr (Some (adr s0 (S (S (length l)))))]; Text x; Text source]) s')
    (c_generate_sequence literal x s).
Proof.
  intros A Rm Cx Fx Cs. unfold c_generate_sequence. pose proof (arena_length _ _ _ A) as L. eapply ends_bind.
  - eapply ends_weaken; [apply (sequence_init_ok s [] (length x) (literal x) x); [cbn; splits; auto|exact Fx]| |intros p s' Q; exact Q].
    + destruct A as (-> & _). now apply cstr_old.
    + intros h n B. unfold in_room. cbv beta in B. rewrite (arena_size _ _ _ A) in B. lia.
  - intros p s1 (-> & H & Sb & C). rewrite L in *.
    assert (A1 : arena s0 (l ++ [Rec 32 [Adr None; Adr (Some (adr s0 (S (length l)))); Adr None; Adr None]; Text x]) s1).
    { destruct A as (E & W & F). split; [rewrite H, E, map_app, <- app_assoc; reflexivity|]. split.
      - intros b Lb. rewrite Sb; [now apply W|]. cbn. lia.
      - intros k m ws N. destruct (Nat.lt_ge_cases k (length l)) as [Lk|Lk].
        + rewrite nth_error_app1 in N by exact Lk. rewrite Sb by (cbn; lia). now apply F.
        + rewrite nth_error_app2 in N by exact Lk. destruct (k - length l) as [|[|[|j]]] eqn:Ek; try discriminate. cbn in N. injection N as <- <-.
          destruct C as (_ & Fv & _). cbn [p_block] in *. replace (length (s_heap s0) + k) with (length (s_heap s0) + length l) by lia.
          split; [|cbn; lia]. unfold adr. now rewrite Nat.add_succ_r. }
    eapply ends_bind; [apply (literal_strdup _ s1 source A1); auto|].
    + rewrite size_items. change (length source) with 20. unfold items_size at 2. cbn [map list_sum fold_right item_size]. lia.
    + reflexivity.
    + intros q s2 (-> & A2). rewrite <- app_assoc in A2. cbn [app] in A2.
      destruct (arena_assign _ _ _ (length l) _ _ 3 (Ptr (adr s0 (length (l ++ [Rec 32 [Adr None; Adr (Some (adr s0 (S (length l)))); Adr None; Adr None]; Text x])))) (Adr (Some (adr s0 (S (S (length l)))))) A2 (nth_new _ _ _) ltac:(cbn; lia)) as (E & A3).
      { cbn. right. eexists. split; [reflexivity|]. f_equal. f_equal. rewrite app_length. cbn. lia. }
      step (E : assign _ SQ_source_filename _ s2 = _). constructor. split; [reflexivity|]. rewrite set_last_item in A3. exact A3.
Qed.

End spoof.
