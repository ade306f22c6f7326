(** * Facts about words in memory *)

From Verif Require Import Base BaseFacts Stdio Table TableProofs Filelist Prog Warnings Mem MemSpec MemFacts Words WordsSpec.

Local Open Scope nat_scope.

(** ** Steps *)

Lemma wbind_done {A B} (m : wmem A) (k : A -> wmem B) s a s' : m s = done (a, s') -> wbind m k s = k a s'.
Proof. intros E. unfold wbind. rewrite E. now rewrite tbind_done. Qed.

Lemma wbind_ret {A B} (a : A) (k : A -> wmem B) s : wbind (wret a) k s = k a s.
Proof. now apply wbind_done. Qed.

Lemma wbind_assoc {A B C} (m : wmem A) (k : A -> wmem B) (j : B -> wmem C) s :
  wbind (wbind m k) j s = wbind m (fun a => wbind (k a) j) s.
Proof. unfold wbind. rewrite tbind_assoc. apply tbind_ext. now intros [a h'] _. Qed.

Lemma bytes_done {A} (m : mem A) s a h : m (s_heap s) = done (a, h) -> bytes m s = done (a, mkStore h (s_words s)).
Proof. intros E. unfold bytes. rewrite E. now rewrite tbind_done. Qed.

Section ends.
Context {al : allocator}.

Lemma ends_bind {A B} R (Q' : A -> store_t -> Prop) (Q : B -> store_t -> Prop) (m : wmem A) (k : A -> wmem B) s :
  ends R Q' (m s) -> (forall a s', Q' a s' -> ends R Q (k a s')) -> ends R Q (wbind m k s).
Proof.
  intros E K. unfold wbind. destruct E as [a s' q|h n message E r].
  - rewrite tbind_done. auto.
  - cbn. econstructor 2; eauto.
Qed.

Lemma ends_weaken {A} (R R' : heap -> N -> Prop) (Q Q' : A -> store_t -> Prop) t :
  ends R Q t -> (forall h n, R h n -> R' h n) -> (forall a s, Q a s -> Q' a s) -> ends R' Q' t.
Proof. intros [a s q|h n message E r] HR HQ; [constructor 1|econstructor 2]; eauto. Qed.

End ends.

(** ** Words *)

Lemma update_same w b l : update w b l b = l.
Proof. unfold update. now rewrite Nat.eqb_refl. Qed.

Lemma update_other w b l i : i <> b -> update w b l i = w i.
Proof. intros E. unfold update. now destruct (Nat.eqb_spec i b). Qed.

Lemma set_nth_length {A} (l : list A) i a : length (set_nth l i a) = length l.
Proof. revert i. induction l; intros [|i]; cbn; auto. Qed.

Lemma set_nth_same {A} (l : list A) i a : i < length l -> nth_error (set_nth l i a) i = Some a.
Proof. revert i. induction l; intros [|i] L; cbn in *; try lia; auto. apply IHl. lia. Qed.

Lemma set_nth_other {A} (l : list A) i j a : i <> j -> nth_error (set_nth l i a) j = nth_error l j.
Proof. revert i j. induction l; intros [|i] [|j] N; cbn; try easy. apply IHl. lia. Qed.

Lemma Forall2_nth {A B} (P : A -> B -> Prop) l l' i y : Forall2 P l l' -> nth_error l' i = Some y -> exists x, nth_error l i = Some x /\ P x y.
Proof.
  intros F. revert i. induction F; intros [|i] E; cbn in *; try discriminate.
  - injection E as <-. eauto.
  - eauto.
Qed.

Lemma Forall2_nth_l {A B} (P : A -> B -> Prop) l l' i x : Forall2 P l l' -> nth_error l i = Some x -> exists y, nth_error l' i = Some y /\ P x y.
Proof.
  intros F. revert i. induction F; intros [|i] E; cbn in *; try discriminate.
  - injection E as <-. eauto.
  - eauto.
Qed.

Lemma Forall2_set {A B} (P : A -> B -> Prop) l l' i x y : Forall2 P l l' -> P x y -> Forall2 P (set_nth l i x) (set_nth l' i y).
Proof. intros F p. revert i. induction F; intros [|i]; cbn; constructor; auto. Qed.

Lemma members_ok s p vs : content s p vs -> members p s = done (s_words s (p_block p), s).
Proof. intros (O & _ & cells & E & _). unfold members. now rewrite E, O. Qed.

Lemma fetch_ok s p vs i v : content s p vs -> nth_error vs i = Some v -> v <> Any ->
  exists w, fetch p i s = done (w, s) /\ stands_for (Some w) v.
Proof.
  intros C E NA. unfold fetch. rewrite (wbind_done _ _ _ _ _ (members_ok s p vs C)).
  destruct C as (_ & F & _). destruct (Forall2_nth _ _ _ _ _ F E) as (x & -> & St).
  destruct x as [w|]; [now exists w|]. destruct v; cbn in St; destruct St; try easy; destruct H; try easy; firstorder discriminate.
Qed.

Lemma int_at_ok s p vs i z : content s p vs -> nth_error vs i = Some (Num z) -> int_at p i s = done (z, s).
Proof.
  intros C E. destruct (fetch_ok s p vs i _ C E) as (w & F & St); [discriminate|].
  unfold int_at. rewrite (wbind_done _ _ _ _ _ F). cbn in St. destruct St as [[= ->]|[[= ->] ->]]; reflexivity.
Qed.

Lemma ptr_at_ok s p vs i q : content s p vs -> nth_error vs i = Some (Adr q) -> ptr_at p i s = done (q, s).
Proof.
  intros C E. destruct (fetch_ok s p vs i _ C E) as (w & F & St); [discriminate|].
  unfold ptr_at. rewrite (wbind_done _ _ _ _ _ F). cbn in St. destruct St as [[[= ->] ->]|(y & [= ->] & ->)]; reflexivity.
Qed.

(** The store after a member was assigned. *)
Definition assigned (s : store_t) (p : ptr) (i : nat) (w : word) : store_t :=
  mkStore (s_heap s) (update (s_words s) (p_block p) (set_nth (s_words s (p_block p)) i (Some w))).

Lemma content_length s p vs : content s p vs -> length (s_words s (p_block p)) = length vs.
Proof. intros (_ & F & _). induction F; cbn; auto. Qed.

Lemma assign_ok s p vs i w : content s p vs -> i < length vs -> assign p i w s = done (tt, assigned s p i w).
Proof.
  intros C L. unfold assign. rewrite (wbind_done _ _ _ _ _ (members_ok s p vs C)).
  rewrite <- (content_length s p vs C) in L. apply Nat.ltb_lt in L. rewrite L. reflexivity.
Qed.

Lemma assigned_content s p vs i w v : content s p vs -> stands_for (Some w) v -> content (assigned s p i w) p (set_nth vs i v).
Proof.
  intros (O & F & cells & E & L) St. split; [exact O|]. cbn [s_words s_heap assigned]. rewrite update_same. split.
  - now apply Forall2_set.
  - exists cells. rewrite set_nth_length. auto.
Qed.

Lemma assigned_other s p i w q vs : p_block q <> p_block p -> content s q vs -> content (assigned s p i w) q vs.
Proof.
  intros N (O & F & cells & E & L). split; [exact O|]. cbn [s_words s_heap assigned]. rewrite update_other by exact N. eauto.
Qed.

Lemma incr_ok s p vs i z : content s p vs -> nth_error vs i = Some (Num z) -> (z < int_max)%Z ->
  incr p i s = done (tt, assigned s p i (Int (z + 1))).
Proof.
  intros C E L. unfold incr. rewrite (wbind_done _ _ _ _ _ (int_at_ok s p vs i z C E)).
  unfold int_sum. replace (z + 1 <=? int_max)%Z with true by (symmetry; apply Z.leb_le; lia).
  rewrite wbind_ret. apply (assign_ok s p vs); [exact C|]. apply nth_error_Some. now rewrite E.
Qed.

Lemma deref_ok q s : deref (Some q) s = done (q, s).
Proof. reflexivity. Qed.

Lemma index_ok i s : index (Z.of_nat i) s = done (i, s).
Proof. unfold index. replace (Z.of_nat i <? 0)%Z with false by (symmetry; apply Z.ltb_ge; lia). now rewrite Nat2Z.id. Qed.

(** ** The heap grows *)

Definition grow (s : store_t) (h : heap) : store_t := mkStore (s_heap s ++ h) (s_words s).

Lemma content_grow s h p vs : content s p vs -> content (grow s h) p vs.
Proof. intros (O & F & cells & E & L). split; [exact O|]. split; [exact F|]. exists cells. split; [|exact L]. cbn. now apply nth_old. Qed.

Lemma string_in_old h h' q x : string_in h q x -> string_in (h ++ h') q x.
Proof. destruct q, x; cbn; auto. intros (O & C). split; [exact O|]. now apply cstr_old. Qed.

Lemma content_live s p vs : content s p vs -> p_block p < length (s_heap s).
Proof. intros (_ & _ & cells & E & _). apply nth_error_Some. now rewrite E. Qed.

Lemma content_size s p vs : content s p vs -> length vs <= heap_size (s_heap s).
Proof. intros (_ & _ & cells & E & L). pose proof (size_block _ _ _ E). lia. Qed.

Section alloc.
Context {al : allocator}.

(** The store after an allocation. *)
Definition given (s : store_t) (size : N) (k : nat) : store_t :=
  mkStore (s_heap s ++ [Some (repeat None (N.to_nat size))]) (update (s_words s) (length (s_heap s)) (repeat None k)).

Lemma new_ok s size k : ends (fun h n => h = s_heap s /\ n = size) (fun p s' => p = mkPtr (length (s_heap s)) 0 /\ s' = given s size k /\
   refusal_of (s_heap s) size = None) (new_words size k s).
Proof.
  unfold new_words. eapply (ends_bind _ (fun p s' => p = mkPtr (length (s_heap s)) 0 /\ s' = grow s [Some (repeat None (N.to_nat size))] /\ refusal_of (s_heap s) size = None)).
  - unfold bytes, malloc. destruct (refusal_of (s_heap s) size) as [message|] eqn:E.
    + cbn. econstructor 2; eauto.
    + rewrite tbind_done. constructor. auto.
  - intros p s' (-> & -> & E). constructor. auto.
Qed.

Lemma strdup_ok s d data : cstr_at (s_heap s) d data -> fits data ->
  ends (fun h n => h = s_heap s /\ n = (strlen data + 1)%N)
       (fun p s' => p = mkPtr (length (s_heap s)) 0 /\ s' = grow s [string_block data] /\ refusal_of (s_heap s) (strlen data + 1)%N = None)
       (bytes (c_strdup d) s).
Proof.
  intros C F. unfold bytes, c_strdup.
  rewrite (mbind_done _ _ _ _ _ (read_ok _ _ _ C)). unfold size_t, fits in *. rewrite N.mod_small by exact F.
  unfold mbind at 1. unfold malloc. destruct (refusal_of (s_heap s) (strlen data + 1)) as [message|] eqn:E.
  - cbn. econstructor 2; eauto.
  - rewrite tbind_done.
    assert (W : mbind (c_write (mkPtr (length (s_heap s)) 0) (data ++ [NUL])) (fun _ => mret (mkPtr (length (s_heap s)) 0)) (s_heap s ++ [Some (repeat None (N.to_nat (strlen data + 1)))])
             = done (mkPtr (length (s_heap s)) 0, s_heap s ++ [string_block data])).
    { rewrite (write_step (data ++ [NUL]) _ (length (s_heap s)) (strlen data + 1)%N [] _ (malloc_building _ _)).
      rewrite wrs_fits by (unfold strlen; rewrite app_length; cbn; lia). rewrite app_nil_r.
      unfold quietly. cbn. rewrite set_last. rewrite filled_string. reflexivity. }
    rewrite W, tbind_done. constructor. auto.
Qed.

End alloc.

(** ** Freed *)

Lemma wfree_ok s i cells : nth_error (s_heap s) i = Some (Some cells) ->
  bytes (free (mkPtr i 0)) s = done (tt, mkStore (set_block (s_heap s) i None) (s_words s)).
Proof. intros E. apply bytes_done. now apply (free_ok _ _ cells). Qed.

(** ** New blocks *)

Definition cleared (s : store_t) (p : ptr) (k : nat) : store_t :=
  mkStore (s_heap s) (update (s_words s) (p_block p) (repeat (Some Zero) k ++ skipn k (s_words s (p_block p)))).

Lemma clear_ok s p vs k : content s p vs -> k <= length vs -> clear p k s = done (tt, cleared s p k).
Proof.
  intros C L. unfold clear. rewrite (wbind_done _ _ _ _ _ (members_ok s p vs C)).
  rewrite <- (content_length s p vs C) in L. apply Nat.leb_le in L. rewrite L. reflexivity.
Qed.

Lemma cleared_content s p vs vs' : content s p vs -> length vs' = length vs -> Forall (stands_for (Some Zero)) vs' ->
  content (cleared s p (length vs)) p vs'.
Proof.
  intros C E Z. pose proof (content_length s p vs C) as Lw. destruct C as (O & F & cells & N & L).
  split; [exact O|]. cbn [s_words s_heap cleared]. rewrite update_same. split.
  - rewrite skipn_all2 by lia. rewrite app_nil_r, <- E. clear - Z. induction Z; cbn; auto.
  - exists cells. split; [exact N|lia].
Qed.

Lemma cleared_other s p k q vs : p_block q <> p_block p -> content s q vs -> content (cleared s p k) q vs.
Proof. intros N (O & F & X). split; [exact O|]. cbn [s_words s_heap cleared]. rewrite update_other by exact N. auto. Qed.

Lemma given_content s size k : k <= N.to_nat size -> content (given s size k) (mkPtr (length (s_heap s)) 0) (repeat Any k).
Proof.
  intros L. split; [reflexivity|]. cbn [s_words s_heap given p_block]. rewrite update_same. split.
  - clear. induction k; cbn; auto. constructor; cbn; auto.
  - eexists. rewrite nth_last. split; [reflexivity|]. rewrite !repeat_length. exact L.
Qed.

Lemma given_other s size k q vs : content s q vs -> content (given s size k) q vs.
Proof.
  intros C. pose proof (content_live _ _ _ C) as Lv. destruct C as (O & F & cells & N & L). split; [exact O|].
  cbn [s_words s_heap given]. rewrite update_other by lia. split; [exact F|]. exists cells. split; [now apply nth_old|exact L].
Qed.

(** ** Accounts *)

Lemma live_app h h' : live (h ++ h') = live h + live h'.
Proof. unfold live. now rewrite filter_app, app_length. Qed.

Lemma live_set h i cells : nth_error h i = Some (Some cells) -> live (set_block h i None) + 1 = live h.
Proof.
  revert i. induction h as [|x h IH]; intros [|i] E; cbn in E; try discriminate.
  - injection E as ->. unfold live. cbn. lia.
  - specialize (IH i E). unfold live in *. cbn. destruct (is_live x); cbn; lia.
Qed.

Definition free_all (l : list nat) (h : heap) : heap := fold_left (fun h b => set_block h b None) l h.

Lemma free_all_app a b h : free_all (a ++ b) h = free_all b (free_all a h).
Proof. apply fold_left_app. Qed.

Lemma free_all_length l : forall h, length (free_all l h) = length h.
Proof. unfold free_all. induction l as [|b l IH]; intros h; cbn; auto. now rewrite IH, set_length. Qed.

Lemma free_all_other l : forall h b, ~ In b l -> nth_error (free_all l h) b = nth_error h b.
Proof.
  unfold free_all. induction l as [|x l IH]; intros h b N; cbn; auto. rewrite IH; [|intros I; apply N; now right].
  apply set_other. intros ->. apply N. now left.
Qed.

Lemma free_all_gone l : forall h b, b < length h -> In b l -> nth_error (free_all l h) b = Some None.
Proof.
  unfold free_all. induction l as [|x l IH]; intros h b L I; cbn; [easy|].
  destruct (in_dec Nat.eq_dec b l) as [J|J].
  - apply IH; [now rewrite set_length|exact J].
  - destruct I as [->|I]; [|easy]. change (nth_error (free_all l (set_block h b None)) b = Some None).
    rewrite free_all_other by exact J. now apply set_same.
Qed.

Lemma free_all_without own own' h : (forall b, In b own <-> In b own') -> (forall b, In b own -> b < length h) -> without own' h (free_all own h).
Proof.
  intros E L. split; [apply free_all_length|]. intros b. destruct (in_dec Nat.eq_dec b own') as [I|N].
  - apply E in I. apply free_all_gone; auto.
  - apply free_all_other. now rewrite E.
Qed.

Lemma nth_error_ext {A} (l : list A) : forall l', (forall i, nth_error l i = nth_error l' i) -> l = l'.
Proof.
  induction l as [|x l IH]; intros [|y l'] E; auto.
  - specialize (E 0). discriminate.
  - specialize (E 0). discriminate.
  - pose proof (E 0) as E0. injection E0 as ->. f_equal. apply IH. intros i. exact (E (S i)).
Qed.

Lemma without_one own h h1 h2 : without own h h1 -> without own h h2 -> h1 = h2.
Proof.
  intros (L1 & E1) (L2 & E2). apply nth_error_ext. intros b. now rewrite E1, E2.
Qed.

Lemma without_live own h h' : NoDup own -> (forall b, In b own -> exists cells, nth_error h b = Some (Some cells)) -> without own h h' -> live h' + length own = live h.
Proof.
  intros ND Lv W. assert (E : h' = free_all own h).
  { apply (without_one own h); [exact W|]. apply free_all_without; [easy|]. intros b I. destruct (Lv b I) as (cells & E). apply nth_error_Some. now rewrite E. }
  subst h'. clear W. revert h Lv. induction ND as [|b own N ND IH]; intros h Lv; cbn [length]; [change (free_all [] h) with h; lia|].
  change (free_all (b :: own) h) with (free_all own (set_block h b None)).
  destruct (Lv b (or_introl eq_refl)) as (cells & E). pose proof (live_set h b cells E).
  assert (live (free_all own (set_block h b None)) + length own = live (set_block h b None)); [|lia].
  apply IH. intros b' I. destruct (Lv b' (or_intror I)) as (cells' & E'). exists cells'. rewrite set_other; [exact E'|]. now intros ->.
Qed.

Lemma freed_fails {A} p s (k : word -> wmem A) i : nth_error (s_heap s) (p_block p) = Some None -> wbind (fetch p i) k s = quietly (UB BadPointer).
Proof. intros E. unfold wbind, fetch. unfold wbind at 1, members. now rewrite E. Qed.

Lemma freed_int {A} p s (k : Z -> wmem A) i : nth_error (s_heap s) (p_block p) = Some None -> wbind (int_at p i) k s = quietly (UB BadPointer).
Proof. intros E. unfold int_at. rewrite wbind_assoc. now apply freed_fails. Qed.

