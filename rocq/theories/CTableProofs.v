(** * Proofs about tables in memory *)

From Verif Require Import Base BaseFacts Stdio Table TableSpec TableProofs Prog Warnings Mem MemSpec MemFacts Words WordsSpec WordsFacts CTable.

Local Open Scope nat_scope.

Ltac step L := rewrite (wbind_done _ _ _ _ _ L).

(** ** Numbers *)

Lemma unsigned_key k : (k < 2 ^ 32)%N -> unsigned_of (Z.of_N k) = k.
Proof. intros L. unfold unsigned_of. rewrite Z.mod_small by lia. apply N2Z.id. Qed.

Lemma unsigned_int k : (k < 2 ^ 32)%N -> unsigned_of (int_of k) = k.
Proof.
  intros L. unfold unsigned_of, int_of. rewrite (Z.mod_small (Z.of_N k)) by lia.
  destruct (Z.leb_spec (Z.of_N k) int_max).
  - rewrite Z.mod_small by lia. apply N2Z.id.
  - replace ((Z.of_N k - 2 ^ 32) mod 2 ^ 32)%Z with (Z.of_N k); [apply N2Z.id|].
    rewrite <- (Z.mod_add _ 1) by lia. rewrite Z.mod_small; lia.
Qed.

Lemma unsigned_nat n : (Z.of_nat n <= int_max)%Z -> unsigned_of (Z.of_nat n) = N.of_nat n.
Proof. intros L. unfold int_max in L. unfold unsigned_of. rewrite Z.mod_small by lia. lia. Qed.

Lemma int_small k : (Z.of_N k <= int_max)%Z -> int_of k = Z.of_N k.
Proof. intros L. unfold int_of. rewrite Z.mod_small by (unfold int_max in L; lia). now apply Z.leb_le in L as ->. Qed.

Lemma size_nat n : (Z.of_nat n <= int_max)%Z -> size_of (Z.of_nat n) = N.of_nat n.
Proof. intros L. unfold int_max in L. unfold size_of. rewrite Z.mod_small by lia. lia. Qed.

Lemma of_nat_eqb a b : (Z.of_nat a =? Z.of_nat b)%Z = (a =? b).
Proof. destruct (Z.eqb_spec (Z.of_nat a) (Z.of_nat b)), (Nat.eqb_spec a b); lia. Qed.

Lemma of_nat_ltb a b : (Z.of_nat a <? Z.of_nat b)%Z = (a <? b).
Proof. destruct (Z.ltb_spec (Z.of_nat a) (Z.of_nat b)), (Nat.ltb_spec a b); lia. Qed.

Lemma nonneg_not_minus_one n : (Z.of_nat n =? -1)%Z = false.
Proof. apply Z.eqb_neq. lia. Qed.

(** ** Rows *)

Lemma set_row_nth rows i r : set_row rows i r = set_nth rows i r.
Proof. revert i. induction rows; intros [|i]; cbn; auto. now rewrite IHrows. Qed.

Lemma nth_row rows i : i < length rows -> nth_error rows i = Some (row_at rows i).
Proof. intros L. unfold row_at. now apply nth_error_nth'. Qed.

Lemma row_values_length rows : forall ds, length ds = length rows -> length (row_values rows ds) = 2 * length rows.
Proof. induction rows as [|r rows IH]; intros [|d ds] L; cbn in *; try discriminate; auto. rewrite IH by lia. lia. Qed.

Lemma row_values_key rows : forall ds i r, length ds = length rows -> nth_error rows i = Some r ->
  nth_error (row_values rows ds) (2 * i + 0) = Some (Num (Z.of_N (r_key r))).
Proof.
  induction rows as [|r0 rows IH]; intros [|d ds] [|i] r L E; cbn in L; try discriminate; cbn in E.
  - now injection E as <-.
  - replace (2 * S i + 0) with (S (S (2 * i + 0))) by lia. cbn [nth_error row_values]. apply IH; [lia|exact E].
Qed.

Lemma row_values_data rows : forall ds i d, length ds = length rows -> nth_error ds i = Some d ->
  nth_error (row_values rows ds) (2 * i + 1) = Some (Adr d).
Proof.
  induction rows as [|r0 rows IH]; intros [|d0 ds] [|i] d L E; cbn in L; try discriminate; cbn in E; try discriminate.
  - now injection E as <-.
  - replace (2 * S i + 1) with (S (S (2 * i + 1))) by lia. cbn [nth_error row_values]. apply IH; [lia|exact E].
Qed.

Lemma row_values_set rows : forall ds i k x d, length ds = length rows -> i < length rows ->
  set_nth (set_nth (row_values rows ds) (2 * i + 0) (Num (Z.of_N k))) (2 * i + 1) (Adr d) =
  row_values (set_nth rows i (mkRow k x)) (set_nth ds i d).
Proof.
  induction rows as [|r0 rows IH]; intros [|d0 ds] [|i] k x d L I; cbn in L, I; try lia.
  - reflexivity.
  - replace (2 * S i + 0) with (S (S (2 * i + 0))) by lia. replace (2 * S i + 1) with (S (S (2 * i + 1))) by lia.
    cbn [set_nth row_values]. rewrite <- (IH ds i k x d) by lia. reflexivity.
Qed.

Section rows.

Variables (s : store_t) (rp : ptr) (rows : list row) (ds : list (option ptr)).
Hypothesis C : content s rp (row_values rows ds).
Hypothesis L : length ds = length rows.
Hypothesis K : Forall (fun r => (r_key r < 2 ^ 32)%N /\ (r_key r = 0%N <-> r_data r = None)) rows.

Lemma key_range i : i < length rows -> (r_key (row_at rows i) < 2 ^ 32)%N.
Proof. intros I. rewrite Forall_forall in K. apply K. unfold row_at. now apply nth_In. Qed.

Lemma row_key_ok i : i < length rows -> c_row_key rp (Z.of_nat i) s = done (r_key (row_at rows i), s).
Proof.
  intros I. unfold c_row_key. step (index_ok i s). unfold R_key.
  step (int_at_ok _ _ _ _ _ C (row_values_key rows ds i _ L (nth_row rows i I))).
  rewrite unsigned_key; [reflexivity|]. now apply key_range.
Qed.

Lemma row_data_ok i d : nth_error ds i = Some d -> c_row_data rp (Z.of_nat i) s = done (d, s).
Proof. intros E. unfold c_row_data. step (index_ok i s). unfold R_data. apply (ptr_at_ok _ _ _ _ _ C). now apply row_values_data. Qed.

End rows.

Lemma rows_ok s p vs rp : content s p vs -> nth_error vs 4 = Some (Adr (Some rp)) -> c_rows p s = done (rp, s).
Proof. intros C E. unfold c_rows. step (ptr_at_ok _ _ _ _ _ C E). reflexivity. Qed.

(** The search. *)
Lemma find_rounds s p vs rp rows ds (f : N -> bool) :
  content s p vs -> nth_error vs 0 = Some (Num (Z.of_nat (length rows))) -> nth_error vs 4 = Some (Adr (Some rp)) ->
  content s rp (row_values rows ds) -> length ds = length rows ->
  Forall (fun r => (r_key r < 2 ^ 32)%N /\ (r_key r = 0%N <-> r_data r = None)) rows ->
  forall n fuel i, length rows - i = n -> i <= length rows -> n < fuel ->
  wrounds fuel (fun i =>
            let$ length := int_at p T_length in
            if (i <? length)%Z then
              let$ rows := c_rows p in
              let$ k := c_row_key rows i in
              if f k then wret (inr i) else wret (inl (i + 1)%Z)
            else wret (inr (-1)%Z)) (Z.of_nat i) s =
  done (match find_row (fun r => f (r_key r)) (skipn i rows) i with Some j => Z.of_nat j | None => (-1)%Z end, s).
Proof.
  intros C V0 V4 CR L K. induction n as [|n IH]; intros fuel i E Le Lt; (destruct fuel as [|fuel]; [lia|]); cbn [wrounds];
    rewrite wbind_assoc; step (int_at_ok _ _ _ _ _ C V0); rewrite of_nat_ltb.
  - replace (i <? length rows) with false by (symmetry; apply Nat.ltb_ge; lia). rewrite wbind_ret.
    rewrite skipn_all2 by lia. reflexivity.
  - assert (I : i < length rows) by lia. pose proof I as I'. apply Nat.ltb_lt in I' as ->.
    rewrite wbind_assoc. step (rows_ok s p vs rp C V4). rewrite wbind_assoc. step (row_key_ok s rp rows ds CR L K i I).
    pose proof (nth_row rows i I) as NR.
    destruct (skipn i rows) as [|r rest] eqn:Sk.
    { apply (f_equal (@length _)) in Sk. rewrite skipn_length in Sk. cbn in Sk. lia. }
    destruct (skipn_nth _ _ _ _ Sk) as (Nr & Rest). rewrite NR in Nr. injection Nr as Nr. rewrite Nr.
    cbn [find_row]. destruct (f (r_key r)).
    + now rewrite wbind_ret.
    + rewrite wbind_ret. replace (Z.of_nat i + 1)%Z with (Z.of_nat (S i)) by lia. rewrite IH by lia.
      replace (S i) with (i + 1) at 1 by lia. rewrite Rest. reflexivity.
Qed.

Lemma find_ok s p vs rp rows ds (f : N -> bool) :
  content s p vs -> nth_error vs 0 = Some (Num (Z.of_nat (length rows))) -> nth_error vs 4 = Some (Adr (Some rp)) ->
  content s rp (row_values rows ds) -> length ds = length rows ->
  Forall (fun r => (r_key r < 2 ^ 32)%N /\ (r_key r = 0%N <-> r_data r = None)) rows ->
  c_find_row p f s = done (match find_row (fun r => f (r_key r)) rows 0 with Some j => Z.of_nat j | None => (-1)%Z end, s).
Proof.
  intros C V0 V4 CR L K. unfold c_find_row, wwhile. change 0%Z with (Z.of_nat 0).
  rewrite (find_rounds s p vs rp rows ds f C V0 V4 CR L K (length rows)); try lia; [reflexivity|].
  pose proof (content_size _ _ _ CR) as Sz. rewrite row_values_length in Sz by exact L. lia.
Qed.

Lemma hash_ok n key s : 0 < n -> (Z.of_nat n <= int_max)%Z -> c_table_hash (Z.of_nat n) key s = done (Z.of_nat (table_hash n key), s).
Proof.
  intros Pos Le. unfold c_table_hash. rewrite unsigned_nat by exact Le.
  replace (N.of_nat n =? 0)%N with false by (symmetry; apply N.eqb_neq; lia).
  pose proof (N.mod_upper_bound key (N.of_nat n) ltac:(lia)) as U.
  unfold wret, table_hash. do 2 f_equal. rewrite int_small by lia. lia.
Qed.

(** ** Blocks of a table *)

Lemma Forall2_len {A B} (P : A -> B -> Prop) l l' : Forall2 P l l' -> length l = length l'.
Proof. induction 1; cbn; auto. Qed.

Lemma Forall2_impl {A B} (P Q : A -> B -> Prop) l l' : (forall a b, P a b -> Q a b) -> Forall2 P l l' -> Forall2 Q l l'.
Proof. induction 2; constructor; auto. Qed.

Lemma string_live h q x : string_in h (Some q) x -> exists cells, nth_error h (p_block q) = Some (Some cells).
Proof. destruct x; cbn; [|easy]. intros (_ & cells & rest & E & _). eauto. Qed.

Lemma in_block_list l b : In b (block_list l) <-> exists q, In (Some q) l /\ b = p_block q.
Proof.
  unfold block_list. rewrite in_flat_map. split.
  - intros ([q|] & I & H); cbn in H; [|easy]. destruct H as [<-|[]]. eauto.
  - intros (q & I & ->). exists (Some q). cbn. auto.
Qed.

Lemma own_live s p t c own b : table_at s p t c own -> In b own -> exists cells, nth_error (s_heap s) b = Some (Some cells).
Proof.
  intros (rp & ds & df & CP & CR & F & D & -> & _) [<-|[<-|I]].
  - destruct CP as (_ & _ & cells & E & _). eauto.
  - destruct CR as (_ & _ & cells & E & _). eauto.
  - apply in_block_list in I as (q & [->|I] & ->).
    + now apply string_live in D.
    + apply In_nth_error in I as (i & I). destruct (Forall2_nth_l _ _ _ _ _ F I) as (r & _ & S). now apply string_live in S.
Qed.

Lemma own_old s p t c own b : table_at s p t c own -> In b own -> b < length (s_heap s).
Proof. intros T I. destruct (own_live _ _ _ _ _ _ T I) as (cells & E). apply nth_error_Some. now rewrite E. Qed.

Lemma block_list_app a b : block_list (a ++ b) = block_list a ++ block_list b.
Proof. apply flat_map_app. Qed.

Lemma set_nth_split {A} (l : list A) i x d : nth_error l i = Some d -> exists a b, l = a ++ d :: b /\ set_nth l i x = a ++ x :: b /\ length a = i.
Proof.
  intros E. apply nth_error_split in E as (a & b & -> & <-). exists a, b. splits; auto.
  induction a; cbn; auto. now rewrite IHa.
Qed.

(** ** Lookup *)

Lemma find_existsb f rows : forall i, existsb f rows = match find_row f rows i with Some _ => true | None => false end.
Proof. induction rows as [|r rows IH]; intros i; cbn; auto. destruct (f r); cbn; auto. Qed.

Lemma int_bool (b : bool) : ((if b then 1 else 0) =? 0)%Z = negb b.
Proof. now destruct b. Qed.

Lemma content_ext s s' p vs : s_words s' (p_block p) = s_words s (p_block p) -> s_heap s' = s_heap s -> content s p vs -> content s' p vs.
Proof. intros W H (O & F & X). split; [exact O|]. now rewrite W, H. Qed.

Theorem get_in_memory s p t c own key : table_at s p t c own -> sound c ->
  exists q s', c_table_get (Some p) key s = done (q, s') /\
    string_in (s_heap s') q (table_get t key) /\ (forall q', q = Some q' -> In (p_block q') own) /\
    table_at s' p t (counted t key c) own /\ s_heap s' = s_heap s /\ same_but [p_block p] s s'.
Proof.
  intros T So. pose proof T as (rp & ds & df & CP & CR & F & D & Eo & ND & (Pos & Le & Us & Md & Mk & K & Mx)).
  pose proof (Forall2_len _ _ _ F) as L.
  unfold c_table_get, table_get, counted. destruct (key =? 0)%N.
  { exists None, s. splits; try reflexivity; try easy. }
  assert (V : exists vs, vs = table_values t c df (Some rp)) by eauto. destruct V as (vs & Ev). rewrite <- Ev in CP.
  assert (V0 : nth_error vs 0 = Some (Num (Z.of_nat (length (t_rows t))))) by now rewrite Ev.
  assert (V4 : nth_error vs 4 = Some (Adr (Some rp))) by now rewrite Ev.
  assert (V5 : nth_error vs 5 = Some (Num (n_hits c))) by now rewrite Ev.
  assert (V6 : nth_error vs 6 = Some (Num (n_misses c))) by now rewrite Ev.
  assert (V8 : nth_error vs 8 = Some (Num (n_seeks c))) by now rewrite Ev.
  assert (V9 : nth_error vs 9 = Some (Num (if t_hash t then 1 else 0))) by now rewrite Ev.
  step (int_at_ok _ _ _ _ _ CP V9 : int_at p T_use_hash s = _). rewrite int_bool.
  set (seek := table_hash (length (t_rows t)) key).
  assert (Sk : seek < length (t_rows t)) by now apply table_hash_lt.
  change (N.to_nat (key mod N.of_nat (length (t_rows t)))) with seek.
  change (nth seek (t_rows t) (mkRow 0 None)) with (row_at (t_rows t) seek).
  set (here := (t_hash t && (r_key (row_at (t_rows t) seek) =? key)%N)%bool).
  match goal with |- context[wbind ?m] => assert (M : m s = done (if here then Z.of_nat seek else (-1)%Z, s)) end.
  { unfold here. destruct (t_hash t); cbn [negb andb]; [|reflexivity].
    step (int_at_ok _ _ _ _ _ CP V0 : int_at p T_length s = _). step (hash_ok (length (t_rows t)) key s Pos Le).
    step (rows_ok s p vs rp CP V4). step (row_key_ok s rp (t_rows t) ds CR L K _ Sk).
    fold seek. now destruct (r_key (row_at (t_rows t) seek) =? key)%N. }
  step M. unfold get_offset, t_length. fold seek. fold here.
  assert (Dist : p_block rp <> p_block p). { rewrite Eo in ND. apply NoDup_cons_iff in ND as (ND & _). intros E. apply ND. rewrite E. now left. }
  (* an assigned counter *)
  assert (Counter : forall s1 vs1 i z, content s1 p vs1 -> i < length vs1 -> content s1 rp (row_values (t_rows t) ds) -> s_heap s1 = s_heap s -> same_but [p_block p] s s1 ->
     let s2 := assigned s1 p i (Int z) in
     content s2 p (set_nth vs1 i (Num z)) /\ content s2 rp (row_values (t_rows t) ds) /\ s_heap s2 = s_heap s /\ same_but [p_block p] s s2).
  { intros s1 vs1 i z C1 I C2 H1 W1 s2. splits.
    - apply assigned_content; [exact C1|]. cbn. auto.
    - now apply assigned_other.
    - exact H1.
    - intros b Nb. rewrite <- (W1 b Nb). apply update_other. intros ->. apply Nb. now left. }
  (* the end *)
  assert (End : forall s1 c1, content s1 p (table_values t c1 df (Some rp)) -> content s1 rp (row_values (t_rows t) ds) -> s_heap s1 = s_heap s -> same_but [p_block p] s s1 -> table_at s1 p t c1 own).
  { intros s1 c1 C1 C2 H1 W1. exists rp, ds, df. splits; auto. - now rewrite H1. - now rewrite H1. - unfold in_range. auto 12. }
  assert (Data : forall s1 off, content s1 rp (row_values (t_rows t) ds) -> s_heap s1 = s_heap s -> off < length (t_rows t) -> exists q, c_row_data rp (Z.of_nat off) s1 = done (q, s1) /\
     string_in (s_heap s1) q (r_data (row_at (t_rows t) off)) /\ (forall q', q = Some q' -> In (p_block q') own)).
  { intros s1 off C2 H1 I. destruct (Forall2_nth _ _ _ _ _ F (nth_row _ _ I)) as (q & Nq & St).
    exists q. splits; [now apply (row_data_ok s1 rp (t_rows t) ds)| now rewrite H1 |].
    intros q' ->. rewrite Eo. right. right. apply in_block_list. exists q'. split; [|reflexivity]. right. now apply nth_error_In in Nq. }
  destruct So as (So1 & So2 & So3).
  destruct here eqn:Hh.
  - rewrite nonneg_not_minus_one, wbind_ret, nonneg_not_minus_one.
    step (incr_ok _ _ _ _ _ CP V5 So1 : incr p T_hits s = _).
    destruct (Counter s vs 5 (n_hits c + 1)%Z CP) as (C1 & C2 & H1 & W1); auto; [rewrite Ev; cbn; lia|easy|].
    set (s1 := assigned s p 5 (Int (n_hits c + 1))) in *.
    rewrite Ev in C1. cbn in C1. step (rows_ok s1 p _ rp C1 eq_refl).
    destruct (Data s1 seek C2 H1 Sk) as (q & E & St & Iq). rewrite E.
    exists q, s1. splits; auto.
  - cbn [Z.eqb Pos.eqb]. rewrite wbind_assoc.
    step (incr_ok _ _ _ _ _ CP V8 So3 : incr p T_seeks s = _).
    destruct (Counter s vs 8 (n_seeks c + 1)%Z CP) as (C1 & C2 & H1 & W1); auto; [rewrite Ev; cbn; lia|easy|].
    set (s1 := assigned s p 8 (Int (n_seeks c + 1))) in *. rewrite Ev in C1. cbn in C1.
    step (find_ok s1 p _ rp (t_rows t) ds (fun k => (k =? key)%N) C1 eq_refl eq_refl C2 L K).
    rewrite (find_existsb _ _ 0). destruct (find_row (fun r => (r_key r =? key)%N) (t_rows t) 0) as [off|] eqn:Fr.
    + apply find_row_some in Fr as (j & I & Fr & _). cbn in I. rewrite nonneg_not_minus_one.
      step (incr_ok _ _ _ 5 _ C1 eq_refl So1 : incr p T_hits s1 = _).
      destruct (Counter s1 _ 5 (n_hits c + 1)%Z C1) as (C3 & C4 & H3 & W3); auto; try (cbn; lia).
      set (s2 := assigned s1 p 5 (Int (n_hits c + 1))) in *. cbn in C3.
      step (rows_ok s2 p _ rp C3 eq_refl).
      destruct (Data s2 off C4 H3 ltac:(lia)) as (q & E & St & Iq). rewrite E. exists q, s2. splits; auto.
    + cbn [Z.eqb Pos.eqb]. step (incr_ok _ _ _ 6 _ C1 eq_refl So2 : incr p T_misses s1 = _).
      destruct (Counter s1 _ 6 (n_misses c + 1)%Z C1) as (C3 & C4 & H3 & W3); auto; try (cbn; lia).
      cbn in C3. eexists None, _. splits; try reflexivity; auto; easy.
Qed.

(** ** Storing *)

Lemma put_length_eq t key data : length (t_rows (fst (table_put t key data))) = length (t_rows t).
Proof. apply table_put_length. Qed.

Lemma put_offset_lt t key off : 0 < length (t_rows t) -> put_offset t key = Some off -> off < length (t_rows t) /\ free_or key (row_at (t_rows t) off) = true.
Proof.
  unfold put_offset, t_length. intros Pos. destruct (t_hash t && free_or key (row_at (t_rows t) (table_hash (length (t_rows t)) key)))%bool eqn:E.
  - intros [= <-]. apply andb_prop in E as (_ & E). split; [now apply table_hash_lt|exact E].
  - intros Fr. apply find_row_some in Fr as (j & -> & I & Fr & _). auto.
Qed.

Lemma string_in_new h data : nonul data -> string_in (h ++ [string_block data]) (Some (mkPtr (length h) 0)) (Some data).
Proof. intros Nn. cbn. split; [reflexivity|]. apply (cstr_block _ _ data []); [apply nth_last|exact Nn]. Qed.

Lemma Forall_set_nth {A} (P : A -> Prop) l i x : Forall P l -> P x -> Forall P (set_nth l i x).
Proof. intros F p. revert i. induction F; intros [|i]; cbn; constructor; auto. Qed.

Section storing.

Context {al : allocator}.

Theorem put_in_memory s p t c own key d data :
  table_at s p t c own -> cstr_at (s_heap s) d data -> (strlen data < 2 ^ 31)%N -> (key < 2 ^ 32)%N ->
  (Z.of_nat (t_overwrites t) < int_max)%Z ->
  ends (fun h n => h = s_heap s /\ n = (strlen data + 1)%N)
       (fun off s' => exists own',
          off = match snd (table_put t key data) with Some i => Z.of_nat i | None => (-1)%Z end /\
          table_at s' p (fst (table_put t key data)) c own' /\ same_but own s s' /\
          match snd (table_put t key data) with
          | None => s' = s /\ own' = own
          | Some _ => s_heap s' = s_heap s ++ [string_block data] /\ incl own' (length (s_heap s) :: own) /\
                      length own' + t_overwrites (fst (table_put t key data)) = length own + t_overwrites t + 1
          end)
       (c_table_put (Some p) key d s).
Proof.
  intros T Cd Ld Kr Ow. pose proof T as (rp & ds & df & CP & CR & F & D & Eo & ND & (Pos & Le & Us & Md & Mk & K & Mx)).
  pose proof (Forall2_len _ _ _ F) as L.
  unfold c_table_put, table_put. destruct (N.eqb_spec key 0) as [->|Kz].
  { cbn [fst snd]. constructor. exists own. splits; auto; try reflexivity; intros b _; reflexivity. }
  assert (V : exists vs, vs = table_values t c df (Some rp)) by eauto. destruct V as (vs & Ev). rewrite <- Ev in CP.
  assert (V0 : nth_error vs 0 = Some (Num (Z.of_nat (length (t_rows t))))) by now rewrite Ev.
  assert (V1 : nth_error vs 1 = Some (Num (Z.of_nat (t_used t)))) by now rewrite Ev.
  assert (V4 : nth_error vs 4 = Some (Adr (Some rp))) by now rewrite Ev.
  assert (V7 : nth_error vs 7 = Some (Num (Z.of_nat (t_overwrites t)))) by now rewrite Ev.
  assert (V9 : nth_error vs 9 = Some (Num (if t_hash t then 1 else 0))) by now rewrite Ev.
  step (int_at_ok _ _ _ _ _ CP V0 : int_at p T_length s = _). step (int_at_ok _ _ _ _ _ CP V1 : int_at p T_used s = _).
  rewrite of_nat_eqb. unfold t_length. destruct (Nat.eqb_spec (length (t_rows t)) (t_used t)) as [Full|Nf].
  { cbn [fst snd]. constructor. exists own. splits; auto; try reflexivity; intros b _; reflexivity. }
  step (int_at_ok _ _ _ _ _ CP V9 : int_at p T_use_hash s = _). rewrite int_bool.
  set (f := fun k => ((k =? 0) || (k =? key))%N).
  set (seek := table_hash (length (t_rows t)) key).
  assert (Sk : seek < length (t_rows t)) by now apply table_hash_lt.
  set (here := (t_hash t && free_or key (row_at (t_rows t) seek))%bool).
  match goal with |- context[wbind ?m] => assert (M : m s = done (if here then Z.of_nat seek else (-1)%Z, s)) end.
  { unfold here. destruct (t_hash t); cbn [negb andb]; [|reflexivity].
    step (int_at_ok _ _ _ _ _ CP V0 : int_at p T_length s = _). step (hash_ok (length (t_rows t)) key s Pos Le).
    step (rows_ok s p vs rp CP V4). step (row_key_ok s rp (t_rows t) ds CR L K _ Sk).
    fold seek. unfold f, free_or. now destruct ((r_key (row_at (t_rows t) seek) =? 0) || (r_key (row_at (t_rows t) seek) =? key))%N%bool. }
  step M. clear M.
  match goal with |- context[wbind ?m] => assert (M : m s = done (match put_offset t key with Some i => Z.of_nat i | None => (-1)%Z end, s)) end.
  { unfold put_offset, t_length. fold seek. fold here. destruct here.
    - now rewrite nonneg_not_minus_one.
    - cbn [Z.eqb Pos.eqb]. rewrite (find_ok s p vs rp (t_rows t) ds f CP V0 V4 CR L K). reflexivity. }
  step M. clear M. destruct (put_offset t key) as [off|] eqn:Po.
  2: { cbn [Z.eqb Pos.eqb fst snd]. constructor. exists own. splits; auto; try reflexivity; intros b _; reflexivity. }
  rewrite nonneg_not_minus_one. destruct (put_offset_lt t key off Pos Po) as (Lo & Fo).
  step (rows_ok s p vs rp CP V4). step (row_key_ok s rp (t_rows t) ds CR L K _ Lo).
  assert (Dist : p_block rp <> p_block p). { rewrite Eo in ND. apply NoDup_cons_iff in ND as (ND & _). intros E. apply ND. rewrite E. now left. }
  set (ow := if (r_key (row_at (t_rows t) off) =? key)%N then S (t_overwrites t) else t_overwrites t).
  cbn [fst snd].
  (* overwrites *)
  match goal with |- context[wbind ?m] => assert (M : exists s1, m s = done (tt, s1) /\ s_heap s1 = s_heap s /\ same_but own s s1 /\
      content s1 p (set_nth vs 7 (Num (Z.of_nat ow))) /\ content s1 rp (row_values (t_rows t) ds)) end.
  { unfold ow. destruct (r_key (row_at (t_rows t) off) =? key)%N.
    - eexists. splits.
      + exact (incr_ok _ _ _ _ _ CP V7 Ow).
      + reflexivity.
      + intros b Nb. apply update_other. intros ->. apply Nb. rewrite Eo. now left.
      + apply assigned_content; [exact CP|]. left. do 2 f_equal. lia.
      + now apply assigned_other.
    - exists s. splits; auto; [easy|]. rewrite Ev. cbn. rewrite Ev in CP. exact CP. }
  destruct M as (s1 & M & H1 & W1 & C1 & R1). step M. clear M.
  rewrite Ev in C1. cbn in C1.
  step (rows_ok s1 p _ rp C1 eq_refl). step (index_ok off s1).
  pose proof (row_values_length (t_rows t) ds L) as Lv.
  step (assign_ok s1 rp _ (2 * off + R_key) (Int (Z.of_N key)) R1 ltac:(unfold R_key; lia)).
  set (s2 := assigned s1 rp (2 * off + R_key) (Int (Z.of_N key))).
  assert (R2 : content s2 rp (set_nth (row_values (t_rows t) ds) (2 * off + 0) (Num (Z.of_N key)))) by (apply assigned_content; [exact R1|left; reflexivity]).
  assert (C2 := assigned_other s1 rp (2 * off + R_key) (Int (Z.of_N key)) p _ (not_eq_sym Dist) C1). fold s2 in C2.
  assert (H2 : s_heap s2 = s_heap s) by exact H1.
  assert (W2 : same_but own s s2). { intros b Nb. rewrite <- (W1 b Nb). apply update_other. intros ->. apply Nb. rewrite Eo. right. now left. }
  eapply ends_bind.
  { eapply ends_weaken.
    - apply (strdup_ok s2 d data); [rewrite H2; exact Cd|]. unfold fits. lia.
    - intros h n (-> & ->). rewrite H2. auto.
    - intros a s' HQ. exact HQ. }
  intros copy s3 (-> & -> & _). rewrite H2. set (s3 := grow s2 [string_block data]).
  assert (C3 := content_grow s2 [string_block data] _ _ C2). fold s3 in C3.
  assert (R3 := content_grow s2 [string_block data] _ _ R2). fold s3 in R3.
  assert (H3 : s_heap s3 = s_heap s ++ [string_block data]) by (unfold s3; cbn; now rewrite H1).
  assert (W3 : same_but own s s3) by exact W2.
  step (rows_ok s3 p _ rp C3 eq_refl).
  set (copy := mkPtr (length (s_heap s)) 0).
  step (assign_ok s3 rp _ (2 * off + R_data) (Ptr copy) R3 ltac:(rewrite set_nth_length; unfold R_data; lia)).
  set (s4 := assigned s3 rp (2 * off + R_data) (Ptr copy)).
  assert (R4 : content s4 rp (row_values (set_nth (t_rows t) off (mkRow key (Some data))) (set_nth ds off (Some copy)))).
  { rewrite <- (row_values_set (t_rows t) ds off key (Some data) (Some copy) L Lo). apply assigned_content; [exact R3|]. right. eauto. }
  assert (C4 := assigned_other s3 rp (2 * off + R_data) (Ptr copy) p _ (not_eq_sym Dist) C3). fold s4 in C4.
  assert (W4 : same_but own s s4). { intros b Nb. rewrite <- (W3 b Nb). apply update_other. intros ->. apply Nb. rewrite Eo. right. now left. }
  assert (H4 : s_heap s4 = s_heap s ++ [string_block data]) by exact H3.
  clearbody s4. clear s3 C3 R3 H3 W3 s2 C2 R2 H2 W2 s1 C1 R1 H1 W1.
  (* assignments to members of the table *)
  assert (Member : forall s1 vs1 i z, content s1 p vs1 -> i < length vs1 -> s_heap s1 = s_heap s4 -> same_but own s s1 -> content s1 rp (row_values (set_nth (t_rows t) off (mkRow key (Some data))) (set_nth ds off (Some copy))) ->
     let s2 := assigned s1 p i (Int z) in
     content s2 p (set_nth vs1 i (Num z)) /\ s_heap s2 = s_heap s4 /\ same_but own s s2 /\ content s2 rp (row_values (set_nth (t_rows t) off (mkRow key (Some data))) (set_nth ds off (Some copy)))).
  { intros s1 vs1 i z C1 I Hs W1 R1 s2. splits.
    - apply assigned_content; [exact C1|]. left. reflexivity.
    - exact Hs.
    - intros b Nb. rewrite <- (W1 b Nb). apply update_other. intros ->. apply Nb. rewrite Eo. now left.
    - now apply assigned_other. }
  step (incr_ok _ _ _ 1 _ C4 eq_refl ltac:(lia) : incr p T_used s4 = _).
  destruct (Member s4 _ 1 (Z.of_nat (t_used t) + 1)%Z C4) as (C5 & H5 & W5 & R5); auto; try (cbn; lia).
  set (s5 := assigned s4 p 1 (Int (Z.of_nat (t_used t) + 1))) in *. cbn in C5. clearbody s5.
  step (int_at_ok _ _ _ 11 _ C5 eq_refl : int_at p T_max_key s5 = _). rewrite unsigned_int by exact Mk.
  set (mk := if (t_maxkey t <? key)%N then key else t_maxkey t).
  match goal with |- context[wbind ?m] => assert (M : exists s6, m s5 = done (tt, s6) /\ s_heap s6 = s_heap s4 /\ same_but own s s6 /\
      content s6 p [Num (Z.of_nat (length (t_rows t))); Num (Z.of_nat (t_used t) + 1); Num (Z.of_nat (t_maxdata t)); Adr df; Adr (Some rp);
   Num (n_hits c); Num (n_misses c); Num (Z.of_nat ow); Num (n_seeks c);
   Num (if t_hash t then 1 else 0); Num (if t_builtin t then 1 else 0); Num (int_of mk)] /\
      content s6 rp (row_values (set_nth (t_rows t) off (mkRow key (Some data))) (set_nth ds off (Some copy)))) end.
  { unfold mk. destruct (t_maxkey t <? key)%N.
    - destruct (Member s5 _ 11 (int_of key) C5) as (C6 & H6 & W6 & R6); auto; try (cbn; lia).
      eexists. splits; [exact (assign_ok s5 p _ 11 (Int (int_of key)) C5 ltac:(cbn; lia))| | | |]; auto.
    - exists s5. splits; auto. }
  destruct M as (s6 & M & H6 & W6 & C6 & R6). step M. clear M.
  step (int_at_ok _ _ _ 2 _ C6 eq_refl : int_at p T_max_data_length s6 = _). rewrite size_nat by exact Md.
  assert (Cd6 : cstr_at (s_heap s6) d data) by (rewrite H6, H4; now apply cstr_old).
  assert (Sl : bytes (c_strlen d) s6 = done (strlen data, s6)).
  { rewrite (bytes_done _ _ _ _ (strlen_ok _ _ _ Cd6)). now destruct s6. }
  step Sl.
  set (md := if t_maxdata t <? length data then length data else t_maxdata t).
  match goal with |- context[wbind ?m] => assert (M : exists s7, m s6 = done (tt, s7) /\ s_heap s7 = s_heap s4 /\ same_but own s s7 /\
      content s7 p [Num (Z.of_nat (length (t_rows t))); Num (Z.of_nat (t_used t) + 1); Num (Z.of_nat md); Adr df; Adr (Some rp);
   Num (n_hits c); Num (n_misses c); Num (Z.of_nat ow); Num (n_seeks c);
   Num (if t_hash t then 1 else 0); Num (if t_builtin t then 1 else 0); Num (int_of mk)] /\
      content s7 rp (row_values (set_nth (t_rows t) off (mkRow key (Some data))) (set_nth ds off (Some copy)))) end.
  { unfold md. replace (t_maxdata t <? length data) with (N.of_nat (t_maxdata t) <? strlen data)%N
      by (unfold strlen; destruct (N.ltb_spec (N.of_nat (t_maxdata t)) (N.of_nat (length data))), (Nat.ltb_spec (t_maxdata t) (length data)); lia).
    destruct (N.of_nat (t_maxdata t) <? strlen data)%N.
    - step Sl. rewrite int_small by (unfold int_max; lia).
      destruct (Member s6 _ 2 (Z.of_nat (length data)) C6) as (C7 & H7 & W7 & R7); auto; try (cbn; lia).
      replace (Z.of_N (strlen data)) with (Z.of_nat (length data)) by (unfold strlen; lia).
      eexists. splits; [exact (assign_ok s6 p _ 2 (Int (Z.of_nat (length data))) C6 ltac:(cbn; lia))| | | |]; auto.
    - exists s6. splits; auto. }
  destruct M as (s7 & M & H7 & W7 & C7 & R7). step M. clear M.
  constructor. rewrite set_row_nth.
  destruct (nth_error ds off) as [dold|] eqn:Nd; [|apply nth_error_None in Nd; lia].
  destruct (set_nth_split ds off (Some copy) dold Nd) as (da & db & Ds & Ds' & La).
  assert (Old : forall b, In b own -> b <> length (s_heap s)) by (intros b I; pose proof (own_old _ _ _ _ _ _ T I); lia).
  exists (p_block p :: p_block rp :: block_list (df :: set_nth ds off (Some copy))). splits; auto.
  - exists rp, (set_nth ds off (Some copy)), df. splits; auto.
    + unfold table_values. cbn [t_rows t_used t_maxdata t_overwrites t_hash t_builtin t_maxkey]. rewrite set_nth_length. replace (Z.of_nat (S (t_used t))) with (Z.of_nat (t_used t) + 1)%Z by lia. exact C7.
    + cbn [t_rows]. apply Forall2_set.
      * rewrite H7, H4. eapply Forall2_impl; [|exact F]. intros a b. apply string_in_old.
      * cbn [r_data]. rewrite H7, H4. apply string_in_new. eapply cstr_at_nonul. exact Cd.
    + rewrite H7, H4. now apply string_in_old.
    + rewrite Ds'. rewrite Eo, Ds in ND. change (df :: da ++ Some copy :: db) with ((df :: da) ++ Some copy :: db). change (df :: da ++ dold :: db) with ((df :: da) ++ dold :: db) in ND.
      rewrite block_list_app in ND |- *. change (Some copy :: db) with ([Some copy] ++ db). change (dold :: db) with ([dold] ++ db) in ND. rewrite block_list_app in ND |- *.
      rewrite !app_comm_cons in ND |- *. change (block_list [Some copy]) with [length (s_heap s)]. cbn [app].
      apply NoDup_Add with (a := length (s_heap s)) (l := (p_block p :: p_block rp :: block_list (df :: da)) ++ block_list db); [apply Add_app|].
      split.
      * clear - ND. destruct dold as [q|]; [exact (NoDup_remove_1 _ _ _ ND)|exact ND].
      * intros I. apply (Old (length (s_heap s))); [|reflexivity]. rewrite Eo, Ds.
        change (df :: da ++ dold :: db) with ((df :: da) ++ [dold] ++ db). rewrite !block_list_app. rewrite !app_comm_cons. rewrite in_app_iff in I |- *. rewrite in_app_iff. tauto.
    + unfold in_range. cbn [t_rows t_used t_maxdata t_maxkey]. rewrite set_nth_length. splits; auto; try lia.
      * unfold md. destruct (t_maxdata t <? length data); [unfold int_max; unfold strlen in Ld; lia|exact Md].
      * unfold mk. destruct (t_maxkey t <? key)%N; auto.
      * apply Forall_set_nth; [exact K|]. cbn. split; [exact Kr|]. split; [intros E; now rewrite E in Kz|discriminate].
      * intros r x I Ex. assert (B : length x <= t_maxdata t \/ x = data).
        { destruct (set_nth_split _ _ (mkRow key (Some data)) _ (nth_row _ _ Lo)) as (ra & rb & Er & Er' & _).
          rewrite Er' in I. apply in_app_iff in I as [I|[<-|I]].
          - left. apply (Mx r x); [|exact Ex]. rewrite Er. apply in_app_iff. now left.
          - right. cbn in Ex. now injection Ex.
          - left. apply (Mx r x); [|exact Ex]. rewrite Er. apply in_app_iff. right. now right. }
        unfold md. destruct (Nat.ltb_spec (t_maxdata t) (length data)); destruct B as [B|B]; subst; lia.
  - now rewrite H7.
  - intros b I. rewrite Ds' in I. rewrite Eo, Ds. cbn in I. cbn.
    change (da ++ Some copy :: db) with (da ++ [Some copy] ++ db) in I. change (da ++ dold :: db) with (da ++ [dold] ++ db).
    fold (block_list (da ++ [Some copy] ++ db)) in I. fold (block_list (da ++ [dold] ++ db)). rewrite !block_list_app in *.
    change (block_list [Some copy]) with [length (s_heap s)] in I. rewrite !in_app_iff in *. cbn in I. tauto.
  - cbn [t_overwrites]. rewrite Eo, Ds', Ds. unfold ow. cbn [length block_list flat_map].
    fold (block_list (da ++ Some copy :: db)). fold (block_list (da ++ dold :: db)).
    change (da ++ Some copy :: db) with (da ++ [Some copy] ++ db). change (da ++ dold :: db) with (da ++ [dold] ++ db).
    rewrite !block_list_app, !app_length. change (length (block_list [Some copy])) with 1.
    destruct (Forall2_nth_l _ _ _ _ _ F Nd) as (r & Nr & St). rewrite (nth_row _ _ Lo) in Nr. injection Nr as <-.
    assert (Kr' : r_key (row_at (t_rows t) off) = 0%N <-> r_data (row_at (t_rows t) off) = None).
    { rewrite Forall_forall in K. apply K. unfold row_at. now apply nth_In. }
    destruct (N.eqb_spec (r_key (row_at (t_rows t) off)) key) as [E|Ne].
    + destruct dold as [q|]; [cbn; lia|]. destruct (r_data (row_at (t_rows t) off)); cbn in St; [easy|]. exfalso. apply Kz. rewrite <- E. now apply Kr'.
    + unfold free_or in Fo. apply orb_prop in Fo as [Fo|Fo]; apply N.eqb_eq in Fo; [|easy].
      apply Kr' in Fo. destruct dold as [q|]; [rewrite Fo in St; easy|cbn; lia].
Qed.

End storing.
