(** * Facts about memory *)

From Verif Require Import Base BaseFacts Stdio Prog Warnings Mem MemSpec.

Local Open Scope nat_scope.

(** ** Sequences of steps *)

Lemma tbind_done {A B} (a : A) (k : A -> talk B) : tbind (done a) k = k a.
Proof. unfold tbind, done, quietly. now destruct (k a). Qed.

Lemma tbind_assoc {A B C} (m : talk A) (k : A -> talk B) (j : B -> talk C) : tbind (tbind m k) j = tbind m (fun a => tbind (k a) j).
Proof.
  destruct m as [o [a|w|c]]; cbn; try reflexivity. destruct (k a) as [o' [b|w|c]]; cbn; try reflexivity.
  destruct (j b) as [o'' r]. now rewrite app_assoc.
Qed.

Lemma tbind_ext {A B} (m : talk A) (k k' : A -> talk B) : (forall a, snd m = Ok a -> k a = k' a) -> tbind m k = tbind m k'.
Proof. intros H. destruct m as [o [a|w|c]]; cbn; auto. now rewrite H. Qed.

Lemma mbind_done {A B} (m : mem A) (k : A -> mem B) h a h' : m h = done (a, h') -> mbind m k h = k a h'.
Proof. intros E. unfold mbind. rewrite E. rewrite tbind_done. reflexivity. Qed.

Lemma mbind_assoc {A B C} (m : mem A) (k : A -> mem B) (j : B -> mem C) h :
  mbind (mbind m k) j h = mbind m (fun a => mbind (k a) j) h.
Proof. unfold mbind. rewrite tbind_assoc. apply tbind_ext. now intros [a h'] _. Qed.

Lemma mbind_ret {A B} (a : A) (k : A -> mem B) h : mbind (mret a) k h = k a h.
Proof. apply mbind_done. reflexivity. Qed.

Lemma mbind_outside {A B} (t : talk A) (k : A -> mem B) h : mbind (outside t) k h = tbind t (fun a => k a h).
Proof. unfold mbind, outside. rewrite tbind_assoc. apply tbind_ext. intros a _. now rewrite tbind_done. Qed.

Lemma rounds_S {V A} fuel (body : V -> mem (V + A)) v h :
  rounds (S fuel) body v h = mbind (body v) (fun x => match x with inl v' => rounds fuel body v' | inr a => mret a end) h.
Proof. reflexivity. Qed.

(** ** Blocks *)

Lemma set_length h i b : length (set_block h i b) = length h.
Proof. revert i. induction h as [|x h IH]; intros [|i]; cbn; auto. Qed.

Lemma set_same h i b : i < length h -> nth_error (set_block h i b) i = Some b.
Proof. revert i. induction h as [|x h IH]; intros [|i] L; cbn in *; try lia; auto. apply IH. lia. Qed.

Lemma set_other h i j b : i <> j -> nth_error (set_block h i b) j = nth_error h j.
Proof. revert i j. induction h as [|x h IH]; intros [|i] [|j] N; cbn; try easy. apply IH. lia. Qed.

Lemma set_set h i a b : set_block (set_block h i a) i b = set_block h i b.
Proof. revert i. induction h as [|x h IH]; intros [|i]; cbn; auto. now rewrite IH. Qed.

Lemma set_id h i b : nth_error h i = Some b -> set_block h i b = h.
Proof. revert i. induction h as [|x h IH]; intros [|i]; cbn; auto; [now intros [= ->]|]. intros E. now rewrite IH. Qed.

Lemma set_app_l h h' i b : i < length h -> set_block (h ++ h') i b = set_block h i b ++ h'.
Proof. revert i. induction h as [|x h IH]; intros [|i] L; cbn in *; try lia; auto. rewrite IH; [reflexivity|lia]. Qed.

Lemma set_app_r h h' i b : set_block (h ++ h') (length h + i) b = h ++ set_block h' i b.
Proof. induction h; cbn; auto. now rewrite IHh. Qed.

Lemma set_last h x b : set_block (h ++ [x]) (length h) b = h ++ [b].
Proof. replace (length h) with (length h + 0) by lia. now rewrite set_app_r. Qed.

Lemma nth_last {A} (h : list A) x : nth_error (h ++ [x]) (length h) = Some x.
Proof. rewrite nth_error_app2, Nat.sub_diag; [reflexivity|lia]. Qed.

Lemma nth_old {A} (h h' : list A) i x : nth_error h i = Some x -> nth_error (h ++ h') i = Some x.
Proof. intros E. rewrite nth_error_app1; [exact E|]. apply nth_error_Some. congruence. Qed.

Lemma size_app h h' : heap_size (h ++ h') = heap_size h + heap_size h'.
Proof. unfold heap_size. now rewrite map_app, list_sum_app. Qed.

Lemma size_block h i cells : nth_error h i = Some (Some cells) -> length cells <= heap_size h.
Proof.
  unfold heap_size. revert i. induction h as [|x h IH]; intros [|i]; cbn; try discriminate.
  - intros [= ->]. cbn [block_size]. lia.
  - intros E. apply IH in E. unfold list_sum in E. lia.
Qed.

(** ** Strings *)

Lemma skipn_nth {A} n (l : list A) x r : skipn n l = x :: r -> nth_error l n = Some x /\ skipn (n + 1) l = r.
Proof.
  revert n. induction l as [|y l IH]; intros [|n] E; cbn in *; try discriminate.
  - injection E as -> ->. auto.
  - now apply IH.
Qed.

Lemma cstr_cons h p c s : cstr_at h p (c :: s) -> load p h = done (c, h) /\ cstr_at h (plus p 1) s /\ c <> NUL.
Proof.
  intros (cells & rest & B & E & N). apply nonul_cons in N. destruct N as [N1 N2]. cbn [map app] in E.
  destruct (skipn_nth _ _ _ _ E) as [X Y]. splits; auto.
  - unfold load. now rewrite B, X.
  - exists cells, rest. auto.
Qed.

Lemma cstr_nil h p : cstr_at h p [] -> load p h = done (NUL, h).
Proof.
  intros (cells & rest & B & E & N). cbn [map app] in E. destruct (skipn_nth _ _ _ _ E) as [X Y].
  unfold load. now rewrite B, X.
Qed.

Lemma cstr_skip h p a b : cstr_at h p (a ++ b) -> cstr_at h (plus p (length a)) b.
Proof.
  revert p. induction a as [|c a IH]; intros p H; cbn [app length] in *.
  - unfold plus. rewrite Nat.add_0_r. now destruct p.
  - apply cstr_cons in H. destruct H as (_ & H & _). apply IH in H. unfold plus in *. cbn [p_block p_off] in *.
    now replace (p_off p + S (length a)) with (p_off p + 1 + length a) by lia.
Qed.

Lemma cstr_size h p s : cstr_at h p s -> length s < heap_size h.
Proof.
  intros (cells & rest & B & E & N). apply size_block in B.
  assert (L : length (skipn (p_off p) cells) = length (map Some s ++ Some NUL :: rest)) by now rewrite E.
  rewrite skipn_length, app_length, map_length in L. cbn [length] in L. lia.
Qed.

Lemma cstr_at_nonul h p s : cstr_at h p s -> nonul s.
Proof. now intros (cells & rest & B & E & N). Qed.

Lemma cstr_set h p s i b : p_block p <> i -> cstr_at h p s -> cstr_at (set_block h i b) p s.
Proof. intros N (cells & rest & B & E & S). exists cells, rest. splits; auto. rewrite set_other; auto. Qed.

Lemma cstr_old h h' p s : cstr_at h p s -> cstr_at (h ++ h') p s.
Proof. intros (cells & rest & B & E & S). exists cells, rest. splits; auto. now apply nth_old. Qed.

Lemma cstr_live h p s : cstr_at h p s -> p_block p < length h.
Proof. intros (cells & rest & B & E & S). apply nth_error_Some. congruence. Qed.

Lemma cstr_one h p s s' : cstr_at h p s -> cstr_at h p s' -> s = s'.
Proof.
  revert p s'. induction s as [|c s IH]; intros p s' H H'.
  - destruct s' as [|c' s']; [reflexivity|]. apply cstr_nil in H. apply cstr_cons in H'. destruct H' as (L & _ & N).
    rewrite H in L. now injection L as <-.
  - destruct s' as [|c' s'].
    + apply cstr_nil in H'. apply cstr_cons in H. destruct H as (L & _ & N). rewrite H' in L. now injection L as <-.
    + apply cstr_cons in H, H'. destruct H as (L & H & _), H' as (L' & H' & _). rewrite L in L'. injection L' as <-. f_equal. eauto.
Qed.

(** A fresh block that holds a string, and perhaps more behind its end. *)
Lemma cstr_block h i s rest : nth_error h i = Some (Some (map Some s ++ Some NUL :: rest)) -> nonul s -> cstr_at h (mkPtr i 0) s.
Proof. intros B N. exists (map Some s ++ Some NUL :: rest), rest. auto. Qed.

(** ** Blocks being written *)

Definition filled (cap : N) (acc : list byte) : list cell := map Some (rev acc) ++ repeat None (N.to_nat cap - length acc).

Definition building (h : heap) (b : nat) (cap : N) (acc : list byte) : Prop :=
  nth_error h b = Some (Some (filled cap acc)) /\ length acc <= N.to_nat cap.

Lemma filled_length cap acc : length acc <= N.to_nat cap -> length (filled cap acc) = N.to_nat cap.
Proof. intros L. unfold filled. rewrite app_length, map_length, rev_length, repeat_length. lia. Qed.

Lemma filled_nil cap : filled cap [] = repeat None (N.to_nat cap).
Proof. unfold filled. cbn. now rewrite Nat.sub_0_r. Qed.

Lemma set_cell_app a b i c : set_cell (a ++ b) (length a + i) c = a ++ set_cell b i c.
Proof. induction a; cbn; auto. now rewrite IHa. Qed.

Lemma filled_set cap acc c : length acc < N.to_nat cap -> set_cell (filled cap acc) (length acc) c = filled cap (c :: acc).
Proof.
  intros L. unfold filled. replace (length acc) with (length (map (@Some byte) (rev acc)) + 0) at 2 by (rewrite map_length, rev_length; lia).
  rewrite set_cell_app. cbn [rev length]. rewrite map_app, <- app_assoc. f_equal.
  replace (N.to_nat cap - length acc) with (S (N.to_nat cap - S (length acc))) by lia. reflexivity.
Qed.

Lemma wr_length cap acc c acc' : wr cap acc c = Ok acc' -> acc' = c :: acc /\ length acc' <= N.to_nat cap.
Proof. unfold wr. destruct (N.ltb_spec (N.of_nat (length acc)) cap); [|discriminate]. intros [= <-]. cbn [length]. split; [reflexivity|lia]. Qed.

Lemma building_set h b cap acc acc' : building h b cap acc -> length acc' <= N.to_nat cap -> building (set_block h b (Some (filled cap acc'))) b cap acc'.
Proof. intros [B L] L'. split; [|exact L']. apply set_same. apply nth_error_Some. congruence. Qed.

Lemma store_step {A} h b cap acc c (k : mem A) : building h b cap acc ->
  mbind (store (mkPtr b (length acc)) c) (fun _ => k) h =
  tbind (quietly (wr cap acc c)) (fun acc' => k (set_block h b (Some (filled cap acc')))).
Proof.
  intros [B L]. unfold mbind, store. cbn [p_block p_off]. rewrite B, filled_length by exact L. unfold wr.
  destruct (Nat.ltb_spec (length acc) (N.to_nat cap)) as [X|X], (N.ltb_spec (N.of_nat (length acc)) cap) as [Y|Y]; try lia.
  - rewrite filled_set by exact X. change (quietly (Ok (c :: acc))) with (done (c :: acc)). now rewrite !tbind_done.
  - reflexivity.
Qed.

Lemma plus_built b n : plus (mkPtr b n) 1 = mkPtr b (S n).
Proof. unfold plus. cbn. now rewrite Nat.add_1_r. Qed.

Lemma quietly_bind {A B C} (m : res A) (k : A -> res B) (j : B -> talk C) :
  tbind (quietly (do x <- m; k x)) j = tbind (quietly m) (fun x => tbind (quietly (k x)) j).
Proof. destruct m as [a|w|c]; cbn; try reflexivity. destruct (k a) as [b|w|c]; cbn; try reflexivity. now destruct (j b). Qed.

Lemma write_step {A} s : forall h b cap acc (k : ptr -> mem A), building h b cap acc ->
  mbind (c_write (mkPtr b (length acc)) s) k h =
  tbind (quietly (wrs cap acc s)) (fun acc' => k (mkPtr b (length acc')) (set_block h b (Some (filled cap acc')))).
Proof.
  induction s as [|c s IH]; intros h b cap acc k Bu; cbn [c_write wrs].
  - rewrite mbind_ret. change (quietly (Ok acc)) with (done acc). rewrite tbind_done, set_id; [reflexivity|]. apply Bu.
  - rewrite mbind_assoc, (store_step h b cap acc c (mbind (c_write (plus (mkPtr b (length acc)) 1) s) k) Bu), quietly_bind.
    apply tbind_ext. cbn [quietly snd]. intros acc' E. destruct (wr_length _ _ _ _ E) as [-> L].
    rewrite plus_built. change (S (length acc)) with (length (c :: acc)).
    rewrite (IH _ _ cap); [|now apply (building_set _ _ _ acc)]. apply tbind_ext. intros acc2 _. now rewrite set_set.
Qed.

Lemma wrs_length cap s : forall acc acc', wrs cap acc s = Ok acc' -> length acc <= N.to_nat cap -> length acc' <= N.to_nat cap.
Proof.
  induction s as [|c s IH]; intros acc acc' E L; cbn [wrs] in E; [now injection E as <-|].
  destruct (wr cap acc c) as [a| |] eqn:W; try discriminate. cbn [bind] in E. destruct (wr_length _ _ _ _ W). eauto.
Qed.

(** ** The library *)

Lemma read_rounds s : forall fuel p acc h, cstr_at h p s -> length s < fuel ->
  rounds fuel (fun '(p, acc) => let* c := load p in
                 if beq c NUL then mret (inr (rev acc)) else mret (inl (plus p 1, c :: acc))) (p, acc) h = done (rev acc ++ s, h).
Proof.
  induction s as [|c s IH]; intros fuel p acc h H L; (destruct fuel as [|fuel]; [lia|]); rewrite rounds_S, mbind_assoc.
  - rewrite (mbind_done _ _ _ _ _ (cstr_nil _ _ H)). cbn [beq]. rewrite app_nil_r. reflexivity.
  - apply cstr_cons in H. destruct H as (E & H & N). rewrite (mbind_done _ _ _ _ _ E).
    destruct (beq c NUL) eqn:X; [now apply beq_eq in X|]. rewrite mbind_ret, IH; auto; [|cbn in L; lia]. cbn [rev]. now rewrite <- app_assoc.
Qed.

Lemma read_ok h p s : cstr_at h p s -> c_read p h = done (s, h).
Proof. intros H. unfold c_read, while. rewrite (read_rounds s); auto. pose proof (cstr_size _ _ _ H). lia. Qed.

Lemma strlen_ok h p s : cstr_at h p s -> c_strlen p h = done (strlen s, h).
Proof. intros H. unfold c_strlen. rewrite (mbind_done _ _ _ _ _ (read_ok _ _ _ H)). reflexivity. Qed.

Lemma malloc_building h n : building (h ++ [Some (repeat None (N.to_nat n))]) (length h) n [].
Proof. split; [|cbn; lia]. rewrite filled_nil. apply nth_last. Qed.

Lemma wrs_fits cap s acc : (N.of_nat (length acc) + strlen s <= cap)%N -> wrs cap acc s = Ok (rev s ++ acc).
Proof.
  unfold strlen. revert acc. induction s as [|c s IH]; intros acc L; cbn [wrs rev]; [reflexivity|]. cbn [length] in L.
  rewrite wr_ok by lia. cbn [bind]. rewrite IH; [now rewrite <- app_assoc|cbn [length]; lia].
Qed.

Lemma filled_string s : filled (strlen s + 1) (rev (s ++ [NUL])) = map Some s ++ [Some NUL].
Proof.
  unfold filled. rewrite rev_involutive, rev_length, app_length, map_app. unfold strlen. cbn [length map].
  replace (N.to_nat (N.of_nat (length s) + 1) - (length s + 1)) with 0 by lia. now rewrite app_nil_r.
Qed.

Lemma free_ok h i cells : nth_error h i = Some (Some cells) -> free (mkPtr i 0) h = done (tt, set_block h i None).
Proof. intros B. unfold free. cbn [p_block p_off]. now rewrite B. Qed.

(** ** Memory is limited *)

Lemma bounded_fits h p s : bounded h -> cstr_at h p s -> fits s.
Proof. unfold bounded, limit, fits, strlen. intros B H. apply cstr_size in H. lia. Qed.

Lemma size_one cells : heap_size [Some cells] = length cells.
Proof. unfold heap_size. cbn. lia. Qed.

Lemma size_nones n : heap_size (repeat None n) = 0.
Proof. unfold heap_size. induction n; cbn; auto. Qed.

Lemma size_set h i cells cells' : nth_error h i = Some (Some cells) -> length cells' = length cells ->
  heap_size (set_block h i (Some cells')) = heap_size h.
Proof.
  unfold heap_size, list_sum. revert i. induction h as [|x h IH]; intros [|i]; cbn [nth_error set_block map fold_right]; try discriminate.
  - intros [= ->] L. cbn [block_size]. lia.
  - intros E L. now rewrite (IH _ E L).
Qed.

Lemma size_free h i : heap_size (set_block h i None) <= heap_size h.
Proof.
  unfold heap_size, list_sum. revert i. induction h as [|x h IH]; intros [|i]; cbn [set_block map fold_right]; auto; [cbn [block_size]; lia|].
  specialize (IH i). lia.
Qed.
