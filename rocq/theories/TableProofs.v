(** * Proofs about src/table.c *)

From Verif Require Import Base BaseFacts Table BuiltinTables TableSpec.

Local Open Scope nat_scope.

Lemma set_row_length rows i r : length (set_row rows i r) = length rows.
Proof. revert i; induction rows as [|x rows IH]; intros [|i]; simpl; auto. Qed.

Lemma row_at_set_same rows i r : i < length rows -> row_at (set_row rows i r) i = r.
Proof.
  unfold row_at. revert i; induction rows as [|x rows IH]; intros [|i] H; simpl in *; try lia; auto.
  apply IH. lia.
Qed.

Lemma row_at_set_other rows i j r : i <> j -> row_at (set_row rows i r) j = row_at rows j.
Proof.
  unfold row_at. revert i j; induction rows as [|x rows IH]; intros [|i] [|j] H; simpl; try lia; auto.
Qed.

Lemma find_row_some p rows i k :
  find_row p rows i = Some k ->
  exists j, k = i + j /\ j < length rows /\ p (row_at rows j) = true /\
            forall j', j' < j -> p (row_at rows j') = false.
Proof.
  unfold row_at. revert i; induction rows as [|x rows IH]; intros i H; simpl in H; [easy|].
  destruct (p x) eqn:E.
  - injection H as <-. exists 0. simpl. splits; try lia; auto.
  - apply IH in H. destruct H as (j & -> & L & P & F).
    exists (S j). simpl. splits; try lia; auto.
    intros [|j'] H; [assumption | apply F; lia].
Qed.

Lemma find_row_none p rows i :
  find_row p rows i = None <-> forall j, j < length rows -> p (row_at rows j) = false.
Proof.
  unfold row_at. revert i; induction rows as [|x rows IH]; intros i; simpl.
  - split; [intros _ j H; lia | reflexivity].
  - destruct (p x) eqn:E.
    + split; [easy|]. intros H. specialize (H 0 ltac:(lia)). simpl in H. congruence.
    + rewrite IH. split.
      * intros H [|j] L; [assumption | apply H; lia].
      * intros H j L. apply (H (S j)). lia.
Qed.

Lemma find_row_first p rows i :
  i < length rows -> p (row_at rows i) = true ->
  exists j, j <= i /\ find_row p rows 0 = Some j /\ p (row_at rows j) = true.
Proof.
  intros L H. destruct (find_row p rows 0) as [j|] eqn:E.
  - apply find_row_some in E. destruct E as (j' & -> & Lj & Pj & F). exists j'. simpl.
    splits; auto. destruct (le_lt_dec j' i); [assumption|]. rewrite F in H by assumption. easy.
  - rewrite find_row_none in E. rewrite E in H by assumption. easy.
Qed.

Lemma table_hash_lt n key : 0 < n -> table_hash n key < n.
Proof.
  intros H. unfold table_hash. pose proof (N.mod_lt key (N.of_nat n) ltac:(lia)). lia.
Qed.

(** ** Invariant *)

Definition occ (rows : list row) (i : nat) : Prop := r_key (row_at rows i) <> 0%N.

Definition count_occ_rows (rows : list row) : nat :=
  length (filter (fun r => negb (r_key r =? 0)%N) rows).

Record wf (t : table) : Prop := {
  wf_pos : 0 < length (t_rows t);
  wf_uniq : forall i j, i < length (t_rows t) -> j < length (t_rows t) ->
      occ (t_rows t) i -> r_key (row_at (t_rows t) i) = r_key (row_at (t_rows t) j) -> i = j;
  wf_data : forall i, i < length (t_rows t) ->
      (occ (t_rows t) i <-> r_data (row_at (t_rows t) i) <> None);
  wf_place : forall i, i < length (t_rows t) -> occ (t_rows t) i ->
      (t_hash t = true /\ i = table_hash (t_length t) (r_key (row_at (t_rows t) i))) \/
      ((forall j, j < i -> occ (t_rows t) j) /\
       (t_hash t = true -> occ (t_rows t) (table_hash (t_length t) (r_key (row_at (t_rows t) i)))));
  wf_used : count_occ_rows (t_rows t) <= t_used t <= length (t_rows t);
  wf_max : forall i d, i < length (t_rows t) -> r_data (row_at (t_rows t) i) = Some d ->
      length d <= t_maxdata t
}.

Lemma free_or_true key r : free_or key r = true <-> r_key r = 0%N \/ r_key r = key.
Proof. unfold free_or. rewrite orb_true_iff, !N.eqb_eq. tauto. Qed.

Lemma free_or_false key r : free_or key r = false <-> r_key r <> 0%N /\ r_key r <> key.
Proof. unfold free_or. rewrite orb_false_iff, !N.eqb_neq. tauto. Qed.

Lemma count_occ_free rows :
  count_occ_rows rows < length rows -> exists i, i < length rows /\ r_key (row_at rows i) = 0%N.
Proof.
  unfold count_occ_rows, row_at. induction rows as [|r rows IH]; simpl; [lia|].
  destruct (N.eqb_spec (r_key r) 0) as [E|E]; simpl.
  - intros _. exists 0. split; [lia | assumption].
  - intros H. destruct IH as (i & L & K); [lia|]. exists (S i). split; [lia | assumption].
Qed.

Lemma count_occ_le rows : count_occ_rows rows <= length rows.
Proof.
  unfold count_occ_rows. induction rows as [|r rows IH]; simpl; [lia|].
  destruct (negb (r_key r =? 0)%N); simpl; lia.
Qed.

Lemma count_occ_set rows i r :
  i < length rows -> count_occ_rows (set_row rows i r) <= S (count_occ_rows rows).
Proof.
  unfold count_occ_rows. revert i; induction rows as [|x rows IH]; intros [|i] H; simpl in *; try lia.
  - destruct (negb (r_key r =? 0)%N), (negb (r_key x =? 0)%N); simpl; lia.
  - specialize (IH i ltac:(lia)). destruct (negb (r_key x =? 0)%N); simpl; lia.
Qed.

(** Where a key is stored when it is stored. *)
Lemma get_offset_spec t key :
  wf t -> key <> 0%N ->
  match get_offset t key with
  | Some i => i < length (t_rows t) /\ r_key (row_at (t_rows t) i) = key
  | None => forall i, i < length (t_rows t) -> r_key (row_at (t_rows t) i) <> key
  end.
Proof.
  intros W K. unfold get_offset.
  destruct (t_hash t && (r_key (row_at (t_rows t) (table_hash (t_length t) key)) =? key)%N) eqn:E.
  - apply andb_true_iff in E. destruct E as [_ E]. apply N.eqb_eq in E.
    split; [apply table_hash_lt, W | assumption].
  - destruct (find_row _ (t_rows t) 0) as [i|] eqn:F.
    + apply find_row_some in F. destruct F as (j & -> & L & P & _).
      apply N.eqb_eq in P. now split.
    + intros i L. rewrite find_row_none in F. apply F in L. now apply N.eqb_neq.
Qed.

Lemma table_get_iff t key d :
  wf t -> key <> 0%N ->
  (table_get t key = Some d <->
   exists i, i < length (t_rows t) /\ row_at (t_rows t) i = mkRow key (Some d)).
Proof.
  intros W K. unfold table_get. destruct (N.eqb_spec key 0); [easy|].
  pose proof (get_offset_spec t key W K) as G.
  destruct (get_offset t key) as [i|].
  - destruct G as [L G]. split.
    + intros D. exists i. split; [assumption|].
      destruct (row_at (t_rows t) i) as [k' d'] eqn:R. simpl in *. now subst.
    + intros (j & Lj & R). assert (i = j) as ->.
      { apply (wf_uniq t W); auto; rewrite ?R; simpl; auto. unfold occ. now rewrite G. }
      now rewrite R.
  - split; [easy|]. intros (j & Lj & R). apply G in Lj. now rewrite R in Lj.
Qed.

Lemma table_get_none_iff t key :
  wf t -> key <> 0%N ->
  (table_get t key = None <-> forall i, i < length (t_rows t) -> r_key (row_at (t_rows t) i) <> key).
Proof.
  intros W K. unfold table_get. destruct (N.eqb_spec key 0); [easy|].
  pose proof (get_offset_spec t key W K) as G.
  destruct (get_offset t key) as [i|].
  - destruct G as [L G]. split.
    + intros D. exfalso. apply (proj1 (wf_data t W i L)); [|assumption].
      unfold occ. now rewrite G.
    + intros H. now apply H in L.
  - split; auto.
Qed.

Lemma table_get_zero t : table_get t 0 = None.
Proof. reflexivity. Qed.

(** ** Storing *)

Lemma put_offset_spec t key :
  wf t -> key <> 0%N -> t_used t < length (t_rows t) ->
  exists off, put_offset t key = Some off /\ off < length (t_rows t) /\
    free_or key (row_at (t_rows t) off) = true /\
    (forall i, i < length (t_rows t) -> r_key (row_at (t_rows t) i) = key -> i = off) /\
    ((t_hash t = true /\ off = table_hash (t_length t) key) \/
     ((forall j, j < off -> occ (t_rows t) j) /\
      (t_hash t = true -> occ (t_rows t) (table_hash (t_length t) key)))).
Proof.
  intros W K U. unfold put_offset.
  set (seek := table_hash (t_length t) key).
  assert (Lseek : seek < length (t_rows t)) by (apply table_hash_lt, W).
  destruct (t_hash t && free_or key (row_at (t_rows t) seek)) eqn:E.
  - apply andb_true_iff in E. destruct E as [Hh Hf].
    exists seek. splits; auto.
    intros i Li Ki. destruct (Nat.eq_dec i seek) as [|Ne]; [assumption|].
    assert (Oi : occ (t_rows t) i) by (unfold occ; congruence).
    destruct (wf_place t W i Li Oi) as [[_ Hi] | [_ Hi]].
    + rewrite Hi, Ki. reflexivity.
    + specialize (Hi Hh). rewrite Ki in Hi. fold seek in Hi.
      apply free_or_true in Hf. destruct Hf as [Hf|Hf]; [contradiction|].
      apply (wf_uniq t W); auto. congruence.
  - destruct (count_occ_free (t_rows t)) as (f & Lf & Kf).
    { pose proof (wf_used t W). lia. }
    destruct (find_row_first (free_or key) (t_rows t) f Lf) as (off & Loff & F & P).
    { apply free_or_true. now left. }
    exists off. rewrite F. apply find_row_some in F. destruct F as (j & -> & Lj & _ & First).
    simpl in *. splits; auto.
    + intros i Li Ki. assert (Oi : occ (t_rows t) i) by (unfold occ; congruence).
      destruct (wf_place t W i Li Oi) as [[Hh Hi] | [Hi _]].
      * rewrite Ki in Hi. fold seek in Hi. subst i.
        rewrite Hh in E. simpl in E. apply free_or_false in E. now destruct E.
      * destruct (lt_eq_lt_dec i j) as [[Hlt|]|Hgt]; [|assumption|].
        -- apply First in Hlt. apply free_or_false in Hlt. now destruct Hlt.
        -- apply Hi in Hgt. apply free_or_true in P. destruct P as [P|P]; [contradiction|].
           apply (wf_uniq t W); auto. congruence.
    + right. split.
      * intros j' Hj'. apply First in Hj'. apply free_or_false in Hj'. now destruct Hj'.
      * intros Hh. rewrite Hh in E. simpl in E. apply free_or_false in E. now destruct E.
Qed.

Lemma table_put_accept t key d :
  wf t -> key <> 0%N -> t_used t < length (t_rows t) ->
  exists off, table_put t key d =
    (mkTable (set_row (t_rows t) off (mkRow key (Some d))) (S (t_used t))
       (if t_maxdata t <? length d then length d else t_maxdata t)
       (t_default t)
       (if (r_key (row_at (t_rows t) off) =? key)%N then S (t_overwrites t) else t_overwrites t)
       (t_hash t) (t_builtin t)
       (if (t_maxkey t <? key)%N then key else t_maxkey t), Some off)
    /\ put_offset t key = Some off.
Proof.
  intros W K U. destruct (put_offset_spec t key W K U) as (off & E & _).
  exists off. split; [|assumption]. unfold table_put.
  destruct (N.eqb_spec key 0); [easy|].
  destruct (Nat.eqb_spec (t_length t) (t_used t)) as [e|_]; [unfold t_length in e; lia|].
  rewrite E. reflexivity.
Qed.

Lemma table_put_refuse t key d :
  key = 0%N \/ t_used t = length (t_rows t) -> table_put t key d = (t, None).
Proof.
  intros [-> | H]; unfold table_put; simpl; [reflexivity|].
  destruct (key =? 0)%N; [reflexivity|]. unfold t_length. rewrite H, Nat.eqb_refl. reflexivity.
Qed.

Lemma table_put_cases t key d :
  wf t ->
  (table_put t key d = (t, None) /\ (key = 0%N \/ t_used t = length (t_rows t))) \/
  (key <> 0%N /\ t_used t < length (t_rows t) /\ exists off, snd (table_put t key d) = Some off).
Proof.
  intros W. destruct (N.eq_dec key 0) as [E|E].
  - left. split; [apply table_put_refuse|]; auto.
  - pose proof (wf_used t W) as U.
    destruct (Nat.eq_dec (t_used t) (length (t_rows t))) as [E'|E'].
    + left. split; [apply table_put_refuse|]; auto.
    + right. splits; auto; [lia|].
      destruct (table_put_accept t key d W E ltac:(lia)) as (off & H & _).
      exists off. now rewrite H.
Qed.

Lemma wf_put t key d : wf t -> wf (fst (table_put t key d)).
Proof.
  intros W. destruct (table_put_cases t key d W) as [[H _] | (K & U & _)].
  - now rewrite H.
  - destruct (table_put_accept t key d W K U) as (off & H & PO). rewrite H. simpl. clear H.
    destruct (put_offset_spec t key W K U) as (off' & E & L & F & Same & Place).
    rewrite PO in E. injection E as <-.
    set (nr := mkRow key (Some d)).
    assert (LEN : length (set_row (t_rows t) off nr) = length (t_rows t)) by apply set_row_length.
    constructor; simpl; rewrite ?LEN.
    + apply W.
    + intros i j Li Lj Oi Kij. unfold occ in Oi.
      destruct (Nat.eq_dec i off) as [->|Ni]; destruct (Nat.eq_dec j off) as [->|Nj]; auto.
      * rewrite row_at_set_same in Kij by assumption. rewrite row_at_set_other in Kij by auto.
        simpl in Kij. symmetry. apply Same; auto.
      * rewrite row_at_set_same in Kij by assumption. rewrite row_at_set_other in Kij by auto.
        simpl in Kij. apply Same; auto.
      * rewrite row_at_set_other in Oi by auto. rewrite !row_at_set_other in Kij by auto.
        now apply (wf_uniq t W).
    + intros i Li. unfold occ. destruct (Nat.eq_dec i off) as [->|Ni].
      * rewrite row_at_set_same by assumption. simpl. split; easy.
      * rewrite row_at_set_other by auto. now apply (wf_data t W).
    + assert (OCC : forall i, i < length (t_rows t) -> occ (t_rows t) i ->
                     occ (set_row (t_rows t) off nr) i).
      { intros i Li Oi. unfold occ. destruct (Nat.eq_dec i off) as [->|Ni].
        - rewrite row_at_set_same by assumption. exact K.
        - rewrite row_at_set_other by auto. exact Oi. }
      assert (HL : forall k, table_hash (length (t_rows t)) k < length (t_rows t))
        by (intro; apply table_hash_lt, W).
      unfold t_length; simpl; rewrite LEN.
      intros i Li Oi. destruct (Nat.eq_dec i off) as [->|Ni].
      * rewrite row_at_set_same by assumption. simpl.
        destruct Place as [Place|[P1 P2]]; [left; exact Place | right]. split.
        -- intros j Hj. apply OCC; [lia|]. now apply P1.
        -- intros Hh. apply OCC; [apply HL|]. now apply P2.
      * unfold occ in Oi. rewrite row_at_set_other in * by auto.
        destruct (wf_place t W i Li Oi) as [P|[P1 P2]]; [left; exact P | right]. split.
        -- intros j Hj. apply OCC; [lia|]. now apply P1.
        -- intros Hh. apply OCC; [apply HL|]. now apply P2.
    + split; [|lia]. pose proof (count_occ_set (t_rows t) off nr L). pose proof (wf_used t W). lia.
    + intros i d' Li D. destruct (Nat.eq_dec i off) as [->|Ni].
      * rewrite row_at_set_same in D by assumption. simpl in D. injection D as <-.
        destruct (Nat.ltb_spec (t_maxdata t) (length d)); lia.
      * rewrite row_at_set_other in D by auto. pose proof (wf_max t W i d' Li D).
        destruct (Nat.ltb_spec (t_maxdata t) (length d)); lia.
Qed.

Lemma table_get_put t key d key' :
  wf t -> key <> 0%N -> t_used t < length (t_rows t) ->
  table_get (fst (table_put t key d)) key' =
  if (key' =? key)%N then Some d else table_get t key'.
Proof.
  intros W K U.
  pose proof (wf_put t key d W) as W'.
  destruct (table_put_accept t key d W K U) as (off & H & PO).
  destruct (put_offset_spec t key W K U) as (off' & E & L & F & Same & Place).
  rewrite PO in E. injection E as <-.
  assert (R : t_rows (fst (table_put t key d)) = set_row (t_rows t) off (mkRow key (Some d)))
    by now rewrite H.
  destruct (N.eqb_spec key' key) as [->|Ne].
  - apply table_get_iff; auto. exists off. rewrite R, set_row_length.
    split; [assumption | now apply row_at_set_same].
  - destruct (N.eq_dec key' 0) as [->|K']; [reflexivity|].
    destruct (table_get t key') as [d'|] eqn:G.
    + apply table_get_iff; auto. apply table_get_iff in G; auto.
      destruct G as (i & Li & Ri). exists i. rewrite R, set_row_length. split; [assumption|].
      rewrite row_at_set_other; [assumption|]. intros ->. rewrite Ri in F.
      apply free_or_true in F. simpl in F. destruct F; congruence.
    + apply table_get_none_iff; auto. rewrite table_get_none_iff in G by auto.
      intros i. rewrite R, set_row_length. intros Li. destruct (Nat.eq_dec off i) as [->|Ni].
      * rewrite row_at_set_same by assumption. simpl. congruence.
      * rewrite row_at_set_other by assumption. now apply G.
Qed.

(** ** New tables *)

Lemma row_at_repeat n i : row_at (repeat empty_row n) i = empty_row.
Proof.
  unfold row_at. revert i; induction n as [|n IH]; intros [|i]; simpl; auto.
Qed.

Lemma count_occ_repeat n : count_occ_rows (repeat empty_row n) = 0.
Proof. unfold count_occ_rows. induction n as [|n IH]; simpl; auto. Qed.

Lemma wf_empty n mo d ow h b : 0 < n -> wf (mkTable (repeat empty_row n) 0 0 d ow h b mo).
Proof.
  intros H. constructor; simpl; unfold occ; rewrite ?repeat_length; auto; intros *;
    rewrite ?row_at_repeat; simpl; try easy.
  rewrite count_occ_repeat. lia.
Qed.

Lemma new_size_pos n : 0 < new_size n.
Proof. unfold new_size. destruct (Z.leb_spec n 0); lia. Qed.

Lemma table_init_eq n : table_init n = mkTable (repeat empty_row (new_size n)) 0 0 None 0 true false 0.
Proof. reflexivity. Qed.

Lemma wf_init n : wf (table_init n).
Proof. rewrite table_init_eq. apply wf_empty, new_size_pos. Qed.

Lemma put_rows_wf rows : forall t, wf t -> wf (put_rows t rows).
Proof.
  induction rows as [|r rows IH]; intros t W; simpl; [assumption|].
  apply IH. destruct (r_data r); [|assumption].
  destruct (0 <? r_key r)%N; [now apply wf_put | assumption].
Qed.

Lemma wf_resize t n h : wf (table_resize t n h).
Proof. unfold table_resize. apply put_rows_wf. rewrite table_init_eq. simpl. apply wf_empty, new_size_pos. Qed.

Lemma wf_set_default t d :
  wf t -> wf (mkTable (t_rows t) (t_used t) (t_maxdata t) d (t_overwrites t)
                   (t_hash t) (t_builtin t) (t_maxkey t)).
Proof. intros [H1 H2 H3 H4 H5 H6]. constructor; simpl; auto. Qed.

Lemma built_wf t : built t -> wf t.
Proof.
  induction 1 as [| | | |t I]; auto using wf_init, wf_put, wf_set_default, wf_resize.
  destruct I as [<-|[<-|[<-|[<-|[]]]]]; apply wf_resize.
Qed.

(** ** Lengths, used and default under stores *)

Lemma table_put_length t k d : length (t_rows (fst (table_put t k d))) = length (t_rows t).
Proof.
  unfold table_put. destruct (k =? 0)%N; [reflexivity|].
  destruct (t_length t =? t_used t); [reflexivity|].
  destruct (put_offset t k); simpl; [apply set_row_length | reflexivity].
Qed.

Lemma table_put_default t k d : t_default (fst (table_put t k d)) = t_default t.
Proof.
  unfold table_put. destruct (k =? 0)%N; [reflexivity|].
  destruct (t_length t =? t_used t); [reflexivity|].
  destruct (put_offset t k); reflexivity.
Qed.

Lemma table_put_hash t k d : t_hash (fst (table_put t k d)) = t_hash t.
Proof.
  unfold table_put. destruct (k =? 0)%N; [reflexivity|].
  destruct (t_length t =? t_used t); [reflexivity|].
  destruct (put_offset t k); reflexivity.
Qed.

Lemma put_rows_length rows : forall t, length (t_rows (put_rows t rows)) = length (t_rows t).
Proof.
  induction rows as [|r rows IH]; intros t; simpl; [reflexivity|].
  rewrite IH. destruct (r_data r); [|reflexivity].
  destruct (0 <? r_key r)%N; [apply table_put_length | reflexivity].
Qed.

Lemma put_rows_default rows : forall t, t_default (put_rows t rows) = t_default t.
Proof.
  induction rows as [|r rows IH]; intros t; simpl; [reflexivity|].
  rewrite IH. destruct (r_data r); [|reflexivity].
  destruct (0 <? r_key r)%N; [apply table_put_default | reflexivity].
Qed.

Lemma table_resize_default t n h : t_default (table_resize t n h) = t_default t.
Proof. unfold table_resize. now rewrite put_rows_default. Qed.

(** ** Histories *)

Lemma last_for_app k l1 l2 :
  last_for k (l1 ++ l2) = match last_for k l2 with Some d => Some d | None => last_for k l1 end.
Proof.
  induction l1 as [|[k' d'] l1 IH]; simpl.
  - now destruct (last_for k l2).
  - rewrite IH. destruct (last_for k l2); reflexivity.
Qed.

Lemma send_spec h : forall t k,
  wf t ->
  table_get (send t h) k =
  match last_for k (accepted (length (t_rows t) - t_used t) h) with
  | Some d => Some d
  | None => table_get t k
  end
  /\ t_used (send t h) = t_used t + length (accepted (length (t_rows t) - t_used t) h)
  /\ length (t_rows (send t h)) = length (t_rows t) /\ wf (send t h).
Proof.
  induction h as [|[k0 d0] h IH]; intros t k W.
  - simpl. unfold accepted. simpl. rewrite firstn_nil. simpl. splits; auto; lia.
  - simpl send. pose proof (wf_used t W) as U.
    pose proof (wf_put t k0 d0 W) as W'.
    destruct (IH (fst (table_put t k0 d0)) k W') as (G & Us & Le & Wf). clear IH.
    rewrite G, Us, Le. clear G Us Le.
    rewrite table_put_length.
    destruct (table_put_cases t k0 d0 W) as [[E [->|Full]] | (K & Lt & _)].
    + rewrite E in *. simpl. unfold accepted. simpl. auto.
    + rewrite E in *. simpl. rewrite Full. rewrite Nat.sub_diag. unfold accepted. simpl.
      splits; auto.
    + assert (Us : t_used (fst (table_put t k0 d0)) = S (t_used t)).
      { destruct (table_put_accept t k0 d0 W K Lt) as (off & -> & _). reflexivity. }
      rewrite Us, table_get_put by auto.
      unfold accepted. simpl filter.
      destruct (N.eqb_spec k0 0) as [?|_]; [easy|]. simpl negb. cbv iota.
      replace (length (t_rows t) - t_used t) with (S (length (t_rows t) - S (t_used t))) by lia.
      simpl firstn. simpl last_for. simpl length.
      splits; auto; try lia.
      destruct (last_for k _); [reflexivity|]. destruct (N.eqb_spec k k0); reflexivity.
Qed.

Lemma new_table_eq rows h :
  new_table rows h = mkTable (repeat empty_row (new_size rows)) 0 0 None 0 h false 0.
Proof. reflexivity. Qed.

Theorem table_history rows h hist k :
  table_get (send (new_table rows h) hist) k = last_for k (accepted (new_size rows) hist).
Proof.
  assert (W : wf (new_table rows h)) by (rewrite new_table_eq; apply wf_empty, new_size_pos).
  destruct (send_spec hist (new_table rows h) k W) as (G & _). rewrite G.
  rewrite new_table_eq. simpl. rewrite repeat_length, Nat.sub_0_r.
  destruct (last_for k (accepted (new_size rows) hist)); [reflexivity|].
  rewrite <- (new_table_eq rows h).
  destruct (N.eq_dec k 0) as [->|K]; [reflexivity|].
  apply table_get_none_iff; auto. rewrite new_table_eq. simpl. intros i _.
  rewrite row_at_repeat. simpl. congruence.
Qed.

Theorem table_store_refused rows h hist k d :
  snd (table_put (send (new_table rows h) hist) k d) = None <->
  k = 0%N \/ new_size rows <= length (filter (fun kd => negb (fst kd =? 0)%N) hist).
Proof.
  assert (W : wf (new_table rows h)) by (rewrite new_table_eq; apply wf_empty, new_size_pos).
  destruct (send_spec hist (new_table rows h) k W) as (_ & U & L & W').
  assert (U' : t_used (send (new_table rows h) hist) =
               Nat.min (new_size rows) (length (filter (fun kd => negb (fst kd =? 0)%N) hist))).
  { rewrite U, new_table_eq. simpl. rewrite repeat_length, Nat.sub_0_r.
    unfold accepted. now rewrite firstn_length. }
  assert (L' : length (t_rows (send (new_table rows h) hist)) = new_size rows).
  { rewrite L, new_table_eq. simpl. now rewrite repeat_length. }
  destruct (table_put_cases (send (new_table rows h) hist) k d W') as [[E [->|F]] | (K & Lt & off & E)].
  - rewrite E. simpl. split; auto.
  - rewrite E. simpl. split; auto. intros _. right. lia.
  - rewrite E. split; [easy|]. intros [->|F]; [easy | lia].
Qed.

Theorem table_refused_unchanged t k d :
  snd (table_put t k d) = None -> fst (table_put t k d) = t.
Proof.
  unfold table_put. destruct (k =? 0)%N; [reflexivity|].
  destruct (t_length t =? t_used t); [reflexivity|].
  destruct (put_offset t k); [easy | reflexivity].
Qed.

(** ** Rebuilding *)

(** The distinct keys of a table, as a list. *)
Definition row_keys (rows : list row) : list N :=
  map r_key (filter (fun r => negb (r_key r =? 0)%N) rows).

Lemma row_keys_in rows k :
  In k (row_keys rows) <-> k <> 0%N /\ exists i, i < length rows /\ r_key (row_at rows i) = k.
Proof.
  unfold row_keys. rewrite in_map_iff. split.
  - intros (r & <- & H). apply filter_In in H. destruct H as [I H].
    apply negb_true_iff, N.eqb_neq in H. split; [assumption|].
    apply (In_nth _ _ empty_row) in I. destruct I as (i & L & E). exists i.
    unfold row_at. rewrite E. auto.
  - intros (K & i & L & E). exists (row_at rows i). split; [assumption|].
    apply filter_In. split; [now apply nth_In|]. apply negb_true_iff, N.eqb_neq. congruence.
Qed.

Lemma row_keys_nodup rows :
  (forall i j, i < length rows -> j < length rows -> occ rows i ->
     r_key (row_at rows i) = r_key (row_at rows j) -> i = j) ->
  NoDup (row_keys rows).
Proof.
  unfold row_keys, occ, row_at. induction rows as [|r rows IH]; intros U; simpl; [constructor|].
  assert (ND : NoDup (map r_key (filter (fun r => negb (r_key r =? 0)%N) rows))).
  { apply IH. intros i j Li Lj Oi E. specialize (U (S i) (S j)). simpl in U.
    assert (S i = S j) by (apply U; auto; lia). lia. }
  destruct (N.eqb_spec (r_key r) 0) as [E|E]; simpl; [assumption|].
  constructor; [|assumption].
  intros I. apply (row_keys_in rows) in I. destruct I as (_ & i & L & K).
  specialize (U 0 (S i) ltac:(simpl; lia) ltac:(simpl; lia)). simpl in U.
  unfold row_at in K. rewrite K in U. specialize (U E eq_refl). lia.
Qed.

Lemma keys_of_row_keys t : wf t -> keys_of t (row_keys (t_rows t)).
Proof.
  intros W. split; [apply row_keys_nodup, W|].
  intros k. rewrite row_keys_in. destruct (N.eq_dec k 0) as [->|K].
  - simpl. split; [easy|]. now intros [].
  - rewrite table_get_none_iff by auto. split.
    + intros (_ & i & L & E) H. now apply (H i L).
    + intros H. split; [assumption|].
      destruct (in_dec N.eq_dec k (row_keys (t_rows t))) as [I|NI].
      * apply row_keys_in in I. tauto.
      * exfalso. apply H. intros i L E. apply NI. apply row_keys_in. eauto.
Qed.

Lemma keys_of_length t ks : wf t -> keys_of t ks -> length ks = length (row_keys (t_rows t)).
Proof.
  intros W [ND I]. destruct (keys_of_row_keys t W) as [ND' I'].
  apply Nat.le_antisymm; apply NoDup_incl_length; auto; intros k H.
  - now apply I', I.
  - now apply I, I'.
Qed.

Lemma put_rows_get rows : forall t,
  wf t ->
  (forall i j, i < length rows -> j < length rows -> occ rows i ->
     r_key (row_at rows i) = r_key (row_at rows j) -> i = j) ->
  (forall i, i < length rows -> (occ rows i <-> r_data (row_at rows i) <> None)) ->
  (forall i, i < length rows -> occ rows i -> table_get t (r_key (row_at rows i)) = None) ->
  forall k,
  (length (row_keys rows) <= length (t_rows t) - t_used t ->
   table_get (put_rows t rows) k =
   match find (fun r => (r_key r =? k)%N) rows with
   | Some r => if (k =? 0)%N then None else r_data r
   | None => table_get t k
   end) /\
  (table_get (put_rows t rows) k = table_get t k \/
   exists i, i < length rows /\ occ rows i /\ r_key (row_at rows i) = k /\
     table_get (put_rows t rows) k = r_data (row_at rows i)).
Proof.
  induction rows as [|r rows IH]; intros t W Uq Dt Fr k; simpl put_rows.
  - simpl. auto.
  - assert (Uq' : forall i j, i < length rows -> j < length rows -> occ rows i ->
              r_key (row_at rows i) = r_key (row_at rows j) -> i = j).
    { intros i j Li Lj Oi E. specialize (Uq (S i) (S j)). simpl in Uq.
      assert (S i = S j) by (apply Uq; auto; lia). lia. }
    assert (Dt' : forall i, i < length rows -> (occ rows i <-> r_data (row_at rows i) <> None)).
    { intros i Li. apply (Dt (S i)). simpl. lia. }
    pose proof (Dt 0 ltac:(simpl; lia)) as D0. unfold occ, row_at in D0. simpl in D0.
    destruct (N.eq_dec (r_key r) 0) as [E0|E0].
    + assert (Dn : r_data r = None). { destruct (r_data r); [|reflexivity]. exfalso. apply D0; easy. }
      rewrite Dn.
      destruct (IH t W Uq' Dt') with (k := k) as [I1 I2].
      { intros i Li Oi. apply (Fr (S i)); [simpl; lia | assumption]. }
      split.
      * intros L. rewrite I1.
        2:{ unfold row_keys in L |- *. simpl in L. rewrite E0 in L. exact L. }
        simpl find. rewrite E0. destruct (N.eqb_spec 0 k) as [<-|N0]; [|reflexivity].
        simpl. destruct (find _ rows); reflexivity.
      * destruct I2 as [I2|(i & Li & Oi & Ki & Gi)]; [now left|].
        right. exists (S i). simpl. splits; auto. lia.
    + destruct (r_data r) as [d|] eqn:Dr; [|exfalso; now apply (proj1 D0 E0)].
      replace (0 <? r_key r)%N with true by (symmetry; apply N.ltb_lt; lia).
      set (t' := fst (table_put t (r_key r) d)).
      assert (W' : wf t') by now apply wf_put.
      assert (Nk : forall i, i < length rows -> occ rows i -> r_key (row_at rows i) <> r_key r).
      { intros i Li Oi E. specialize (Uq 0 (S i) ltac:(simpl; lia) ltac:(simpl; lia)).
        unfold occ, row_at in Uq. simpl in Uq. specialize (Uq E0 (eq_sym E)). lia. }
      assert (Fr' : forall i, i < length rows -> occ rows i -> table_get t' (r_key (row_at rows i)) = None).
      { intros i Li Oi. unfold t'.
        destruct (table_put_cases t (r_key r) d W) as [[E _] | (K & Lt & _)].
        - rewrite E. simpl. apply (Fr (S i)); [simpl; lia | assumption].
        - rewrite table_get_put by auto.
          destruct (N.eqb_spec (r_key (row_at rows i)) (r_key r)) as [e|_].
          + exfalso. now apply (Nk i).
          + apply (Fr (S i)); [simpl; lia | assumption]. }
      destruct (IH t' W' Uq' Dt' Fr' k) as [I1 I2].
      split.
      * intros L. unfold row_keys in L. simpl in L.
        destruct (N.eqb_spec (r_key r) 0) as [?|_]; [easy|]. simpl in L.
        assert (Lt : t_used t < length (t_rows t)) by lia.
        assert (Us : t_used t' = S (t_used t)).
        { unfold t'. destruct (table_put_accept t (r_key r) d W E0 Lt) as (off & -> & _). reflexivity. }
        assert (Ln : length (t_rows t') = length (t_rows t)) by apply table_put_length.
        rewrite I1 by (unfold row_keys; lia).
        unfold t'. rewrite table_get_put by auto.
        simpl find. rewrite (N.eqb_sym k (r_key r)).
        destruct (N.eqb_spec (r_key r) k) as [Ek|Nek].
        -- rewrite <- Ek at 1. destruct (N.eqb_spec k 0); [congruence|].
           destruct (find (fun r0 => (r_key r0 =? r_key r)%N) rows) as [r'|] eqn:Fd.
           ++ exfalso. apply find_some in Fd. destruct Fd as [I E]. apply N.eqb_eq in E.
              apply (In_nth _ _ empty_row) in I. destruct I as (i & Li & Ei).
              apply (Nk i Li); unfold occ, row_at; rewrite Ei; congruence.
           ++ rewrite Ek in Fd. rewrite Fd. destruct (N.eqb_spec (r_key r) 0); congruence.
        -- destruct (find _ rows); reflexivity.
      * destruct I2 as [I2|(i & Li & Oi & Ki & Gi)].
        -- rewrite I2. unfold t'.
           destruct (table_put_cases t (r_key r) d W) as [[E _] | (K & Lt & _)].
           ++ rewrite E. now left.
           ++ rewrite table_get_put by auto. destruct (N.eqb_spec k (r_key r)) as [->|_]; [|now left].
              right. exists 0. unfold occ, row_at. simpl. splits; auto. lia.
        -- right. exists (S i). simpl. splits; auto. lia.
Qed.

Lemma find_row_get t k :
  wf t -> k <> 0%N ->
  match find (fun r => (r_key r =? k)%N) (t_rows t) with
  | Some r => r_data r
  | None => None
  end = table_get t k.
Proof.
  intros W K. destruct (find _ (t_rows t)) as [r|] eqn:F.
  - apply find_some in F. destruct F as [I E]. apply N.eqb_eq in E.
    apply (In_nth _ _ empty_row) in I. destruct I as (i & L & Ei).
    pose proof (wf_data t W i L) as D. unfold occ, row_at in D. rewrite Ei in D.
    destruct (r_data r) as [d|] eqn:Dr.
    + symmetry. apply table_get_iff; auto. exists i. split; [assumption|].
      unfold row_at. rewrite Ei. destruct r; simpl in *. congruence.
    + exfalso. assert (r_key r <> 0%N) as H by congruence. now apply (proj1 D H).
  - symmetry. apply table_get_none_iff; auto. intros i L E.
    apply find_none with (x := row_at (t_rows t) i) in F.
    + simpl in F. now apply N.eqb_neq in F.
    + now apply nth_In.
Qed.

Lemma resize_start t n h :
  wf (mkTable (t_rows (table_init n)) 0 0 (t_default t) (t_overwrites t) h false 0) /\
  (forall k, table_get (mkTable (t_rows (table_init n)) 0 0 (t_default t) (t_overwrites t) h false 0) k = None).
Proof.
  assert (W : wf (mkTable (t_rows (table_init n)) 0 0 (t_default t) (t_overwrites t) h false 0)).
  { rewrite table_init_eq. simpl. apply wf_empty, new_size_pos. }
  split; [exact W|]. intros k. destruct (N.eq_dec k 0) as [->|K]; [reflexivity|].
  apply table_get_none_iff; auto. rewrite table_init_eq. simpl. intros i _.
  rewrite row_at_repeat. simpl. congruence.
Qed.

Theorem resize_preserves t n h ks k :
  wf t -> keys_of t ks -> length ks <= new_size n ->
  table_get (table_resize t n h) k = table_get t k.
Proof.
  intros W Kk L. unfold table_resize. rewrite table_init_eq. simpl t_used. simpl t_maxdata.
  simpl t_builtin. simpl t_maxkey.
  destruct (resize_start t n h) as [W0 G0]. rewrite table_init_eq in W0, G0. simpl t_rows in *.
  destruct (put_rows_get (t_rows t) _ W0 (wf_uniq t W) (wf_data t W)) with (k := k) as [P _].
  { intros i Li Oi. apply G0. }
  rewrite P.
  - rewrite G0. destruct (N.eq_dec k 0) as [->|K].
    + simpl. destruct (find _ (t_rows t)); reflexivity.
    + rewrite <- (find_row_get t k W K). destruct (N.eqb_spec k 0); [easy|]. reflexivity.
  - simpl. rewrite repeat_length, Nat.sub_0_r. now rewrite <- (keys_of_length t ks).
Qed.

Theorem resize_sound t n h k :
  wf t -> table_get (table_resize t n h) k = table_get t k \/ table_get (table_resize t n h) k = None.
Proof.
  intros W. unfold table_resize. rewrite table_init_eq. simpl t_used. simpl t_maxdata.
  simpl t_builtin. simpl t_maxkey.
  destruct (resize_start t n h) as [W0 G0]. rewrite table_init_eq in W0, G0. simpl t_rows in *.
  destruct (put_rows_get (t_rows t) _ W0 (wf_uniq t W) (wf_data t W)) with (k := k) as [_ P].
  { intros i Li Oi. apply G0. }
  destruct P as [P|(i & Li & Oi & Ki & Gi)].
  - right. now rewrite P, G0.
  - left. rewrite Gi. destruct (r_data (row_at (t_rows t) i)) as [d|] eqn:D.
    + symmetry. apply table_get_iff; auto. { unfold occ in Oi. congruence. }
      exists i. split; [assumption|]. destruct (row_at (t_rows t) i); simpl in *. congruence.
    + exfalso. now apply (proj1 (wf_data t W i Li) Oi).
Qed.

(** ** Maximum data length *)

Theorem get_maxdata t k d : wf t -> table_get t k = Some d -> length d <= t_maxdata t.
Proof.
  intros W G. destruct (N.eq_dec k 0) as [->|K]; [easy|].
  apply table_get_iff in G; auto. destruct G as (i & L & R).
  apply (wf_max t W i); [assumption | now rewrite R].
Qed.

Lemma put_rows_maxdata rows : forall t,
  wf t -> 
  (forall i j, i < length rows -> j < length rows -> occ rows i ->
     r_key (row_at rows i) = r_key (row_at rows j) -> i = j) ->
  (forall i, i < length rows -> (occ rows i <-> r_data (row_at rows i) <> None)) ->
  (forall i, i < length rows -> occ rows i -> table_get t (r_key (row_at rows i)) = None) ->
  (t_maxdata t = 0 \/ exists k d, table_get t k = Some d /\ length d = t_maxdata t) ->
  t_maxdata (put_rows t rows) = 0 \/
  exists k d, table_get (put_rows t rows) k = Some d /\ length d = t_maxdata (put_rows t rows).
Proof.
  induction rows as [|r rows IH]; intros t W Uq Dt Fr M; simpl put_rows; [assumption|].
  assert (Uq' : forall i j, i < length rows -> j < length rows -> occ rows i ->
            r_key (row_at rows i) = r_key (row_at rows j) -> i = j).
  { intros i j Li Lj Oi E. specialize (Uq (S i) (S j)). simpl in Uq.
    assert (S i = S j) by (apply Uq; auto; lia). lia. }
  assert (Dt' : forall i, i < length rows -> (occ rows i <-> r_data (row_at rows i) <> None)).
  { intros i Li. apply (Dt (S i)). simpl. lia. }
  assert (Frt : forall i, i < length rows -> occ rows i -> table_get t (r_key (row_at rows i)) = None).
  { intros i Li Oi. apply (Fr (S i)); [simpl; lia | assumption]. }
  destruct (r_data r) as [d|] eqn:Dr; [|now apply IH].
  destruct (0 <? r_key r)%N eqn:Kp; [|now apply IH]. apply N.ltb_lt in Kp.
  destruct (table_put_cases t (r_key r) d W) as [[E _] | (K & Lt & _)].
  { rewrite E. now apply IH. }
  assert (Gk : table_get t (r_key r) = None).
  { apply (Fr 0); [simpl; lia|]. unfold occ, row_at. simpl. lia. }
  apply IH; auto.
  - now apply wf_put.
  - intros i Li Oi. rewrite table_get_put by auto.
    destruct (N.eqb_spec (r_key (row_at rows i)) (r_key r)) as [e|_]; [|now apply Frt].
    exfalso. specialize (Uq 0 (S i) ltac:(simpl; lia) ltac:(simpl; lia)).
    unfold occ, row_at in Uq. simpl in Uq. specialize (Uq K (eq_sym e)). lia.
  - assert (Mx : t_maxdata (fst (table_put t (r_key r) d)) =
                 if t_maxdata t <? length d then length d else t_maxdata t).
    { destruct (table_put_accept t (r_key r) d W K Lt) as (off & -> & _). reflexivity. }
    rewrite Mx. destruct (Nat.ltb_spec (t_maxdata t) (length d)) as [Lm|Lm].
    + right. exists (r_key r), d. rewrite table_get_put, N.eqb_refl by auto. auto.
    + destruct M as [M|(k & d' & G & M)]; [now left|].
      right. exists k, d'. rewrite table_get_put by auto.
      destruct (N.eqb_spec k (r_key r)) as [->|_]; [congruence | auto].
Qed.

Theorem resize_maxdata t n h :
  wf t ->
  t_maxdata (table_resize t n h) = 0 \/
  exists k d, table_get (table_resize t n h) k = Some d /\ length d = t_maxdata (table_resize t n h).
Proof.
  intros W. unfold table_resize. rewrite table_init_eq. simpl t_used. simpl t_maxdata at 1 3.
  destruct (resize_start t n h) as [W0 G0]. rewrite table_init_eq in W0, G0. simpl t_rows in *.
  apply put_rows_maxdata; auto; try apply W.
Qed.

(** ** One store, seen from outside *)

Lemma put_other_key t k d k' :
  wf t -> k' <> k -> table_get (fst (table_put t k d)) k' = table_get t k'.
Proof.
  intros W N. destruct (snd (table_put t k d)) as [o|] eqn:E.
  - assert (K : k <> 0%N). { intros ->. discriminate. }
    assert (U : t_used t < length (t_rows t)).
    { unfold table_put in E. apply N.eqb_neq in K. rewrite K in E.
      destruct (Nat.eqb_spec (t_length t) (t_used t)) as [H|H]; [discriminate|].
      pose proof (wf_used t W). unfold t_length in H. lia. }
    rewrite table_get_put by assumption. apply N.eqb_neq in N. now rewrite N.
  - now rewrite table_refused_unchanged.
Qed.

Lemma put_same_key t k d :
  wf t -> snd (table_put t k d) <> None -> table_get (fst (table_put t k d)) k = Some d.
Proof.
  intros W E.
  assert (K : k <> 0%N). { intros ->. now apply E. }
  assert (U : t_used t < length (t_rows t)).
  { unfold table_put in E. apply N.eqb_neq in K. rewrite K in E.
    destruct (Nat.eqb_spec (t_length t) (t_used t)) as [H|H]; [now contradiction E|].
    pose proof (wf_used t W). unfold t_length in H. lia. }
  rewrite table_get_put by assumption. now rewrite N.eqb_refl.
Qed.
