(** * Files and directories in memory *)

From Verif Require Import Base BaseFacts Stdio CleanString Filter Filelist Prog ProgFacts Warnings File FileSpec FileProofs Mem MemFacts MemSpec CFilters CFiltersProofs CFile CSim WarningsProofs MainSpec MainProofs.

Local Open Scope nat_scope.

(** ** The library *)

Lemma store_keeps p b h : (exists cells, nth_error h (p_block p) = Some (Some cells) /\ p_off p < length cells /\
    store p b h = done (tt, set_block h (p_block p) (Some (set_cell cells (p_off p) b)))) \/
  exists w, store p b h = quietly (UB w).
Proof.
  unfold store. destruct (nth_error h (p_block p)) as [[cells|]|] eqn:E; [|right; eauto..].
  destruct (Nat.ltb_spec (p_off p) (length cells)) as [L|L]; [left; eauto|right; eauto].
Qed.

Lemma memcpy_ok s : forall h p b off, cstr_at h p s -> p_block p <> b ->
  c_memcpy (mkPtr b off) p (length s + 1) h = mbind (c_write (mkPtr b off) (s ++ [NUL])) (fun _ => mret tt) h.
Proof.
  assert (G : forall c (k : mem unit) (k' : mem ptr) p b off h, p_block p <> b -> load p h = done (c, h) ->
     (forall h', (exists x, h' = set_block h b x) -> k h' = mbind k' (fun _ => mret tt) h') ->
     mbind (load p) (fun c => mbind (store (mkPtr b off) c) (fun _ => k)) h = mbind (mbind (store (mkPtr b off) c) (fun _ => k')) (fun _ => mret tt) h).
  { intros c k k' p b off h N L K. rewrite (mbind_done _ _ _ _ _ L), mbind_assoc.
    destruct (store_keeps (mkPtr b off) c h) as [(cells & _ & _ & E)|[w E]].
    - rewrite !(mbind_done _ _ _ _ _ E). apply K. cbn [p_block]. eauto.
    - unfold mbind. rewrite E. reflexivity. }
  induction s as [|c s IH]; intros h p b off C N; cbn [length app Nat.add c_memcpy c_write].
  - apply (G NUL (mret tt)); [exact N|exact (cstr_nil _ _ C)|]. intros h' _. now rewrite mbind_ret.
  - destruct (cstr_cons _ _ _ _ C) as (L & C' & _). apply G; [exact N|exact L|]. intros h' [x ->]. apply IH; [|exact N]. now apply cstr_set.
Qed.

Lemma strncpy_ok s1 : forall s2 h p b off, cstr_at h p (s1 ++ s2) -> p_block p <> b ->
  c_strncpy (mkPtr b off) p (length s1) h = mbind (c_write (mkPtr b off) s1) (fun _ => mret tt) h.
Proof.
  induction s1 as [|c s IH]; intros s2 h p b off C N; cbn [length c_strncpy c_write]; [now rewrite mbind_ret|].
  cbn [app] in C. destruct (cstr_cons _ _ _ _ C) as (L & C' & Nc). rewrite (mbind_done _ _ _ _ _ L), mbind_assoc.
  destruct (beq c NUL) eqn:E; [now apply beq_eq in E|]. cbv iota.
  destruct (store_keeps (mkPtr b off) c h) as [(cells & _ & _ & Es)|[w Es]].
  - rewrite !(mbind_done _ _ _ _ _ Es). apply (IH s2); [|exact N]. now apply cstr_set.
  - unfold mbind. rewrite Es. reflexivity.
Qed.

Lemma equal_ok h p s q t : cstr_at h p s -> cstr_at h q t -> c_equal p q h = done (str_eqb s t, h).
Proof.
  intros C D. unfold c_equal, while. assert (L : length s < S (heap_size h)) by (apply cstr_size in C; lia). revert L.
  generalize (S (heap_size h)) as fuel. revert p t q C D. induction s as [|c s IH]; intros p t q C D fuel L; (destruct fuel as [|fuel]; [lia|]);
    rewrite rounds_S, mbind_assoc.
  - rewrite (mbind_done _ _ _ _ _ (cstr_nil _ _ C)), mbind_assoc. destruct t as [|d t].
    + rewrite (mbind_done _ _ _ _ _ (cstr_nil _ _ D)). rewrite beq_refl. reflexivity.
    + destruct (cstr_cons _ _ _ _ D) as (E & _ & N). rewrite (mbind_done _ _ _ _ _ E). destruct (beq NUL d) eqn:X; [apply beq_eq in X; congruence|]. reflexivity.
  - destruct (cstr_cons _ _ _ _ C) as (E & C' & N). rewrite (mbind_done _ _ _ _ _ E), mbind_assoc. destruct t as [|d t].
    + rewrite (mbind_done _ _ _ _ _ (cstr_nil _ _ D)). destruct (beq c NUL) eqn:X; [now apply beq_eq in X|]. reflexivity.
    + destruct (cstr_cons _ _ _ _ D) as (E' & D' & N'). rewrite (mbind_done _ _ _ _ _ E'). cbn [str_eqb]. destruct (beq c d) eqn:X; [|reflexivity].
      cbn [negb]. destruct (beq c NUL) eqn:Y; [now apply beq_eq in Y|]. cbv iota. rewrite mbind_ret. cbn [length] in L. apply IH; auto. lia.
Qed.

Lemma protected_ok h p s : cstr_at h p s -> c_is_protected p h = done (is_protected s, h).
Proof.
  intros C. unfold c_is_protected, is_protected. destruct s as [|c0 s].
  { rewrite (mbind_done _ _ _ _ _ (cstr_nil _ _ C)). reflexivity. }
  destruct (cstr_cons _ _ _ _ C) as (E0 & C1 & N0). rewrite (mbind_done _ _ _ _ _ E0).
  change (bs ".") with ["."%byte]. change (bs "..") with ["."%byte; "."%byte]. cbn [str_eqb].
  destruct (beq c0 ".") eqn:X0; [|reflexivity]. cbv iota. destruct s as [|c1 s].
  { rewrite (mbind_done _ _ _ _ _ (cstr_nil _ _ C1)). reflexivity. }
  destruct (cstr_cons _ _ _ _ C1) as (E1 & C2 & N1). rewrite (mbind_done _ _ _ _ _ E1). cbn [str_eqb andb orb].
  destruct (beq c1 NUL) eqn:Y; [now apply beq_eq in Y|]. cbv iota. destruct (beq c1 ".") eqn:X1; [|reflexivity]. cbv iota.
  assert (P : plus p 2 = plus (plus p 1) 1) by (unfold plus; cbn [p_block p_off]; f_equal; lia). rewrite P. destruct s as [|c2 s].
  { rewrite (mbind_done _ _ _ _ _ (cstr_nil _ _ C2)). reflexivity. }
  destruct (cstr_cons _ _ _ _ C2) as (E2 & C3 & N2). rewrite (mbind_done _ _ _ _ _ E2). cbn [str_eqb andb orb].
  destruct (beq c2 NUL) eqn:Z; [now apply beq_eq in Z|]. reflexivity.
Qed.

Lemma strrchr_split s : match strrchr s "/"%byte with
  | Some (before, ext) => exists b, split_path s = (rev before ++ ["/"%byte], b)
  | None => split_path s = ([], s)
  end.
Proof.
  unfold strrchr. assert (G : forall rest before found,
    (match found with Some (b, e) => exists x, split_path (rev before) = (rev b ++ ["/"%byte], x) | None => split_path (rev before) = ([], rev before) end) ->
    match strrchr_from "/"%byte before rest found with
    | Some (b, ext) => exists x, split_path (rev before ++ rest) = (rev b ++ ["/"%byte], x)
    | None => split_path (rev before ++ rest) = ([], rev before ++ rest)
    end).
  { induction rest as [|c rest IH]; intros before found H; cbn [strrchr_from].
    - rewrite app_nil_r. destruct found as [[b e]|]; exact H.
    - specialize (IH (c :: before) (if beq c "/" then Some (before, c :: rest) else found)). cbn [rev] in IH.
      rewrite <- app_assoc in IH. apply IH. clear IH. destruct (beq c "/") eqn:E.
      + apply beq_eq in E. subst c. exists []. apply split_path_of. unfold last_component. splits; [now rewrite app_nil_r|easy|right; now exists (rev before)].
      + assert (Nc : c <> "/"%byte) by (intros ->; now rewrite beq_refl in E).
        assert (X : forall d x, split_path (rev before) = (d, x) -> split_path (rev before ++ [c]) = (d, x ++ [c])).
        { intros d x Y. apply split_path_spec in Y. destruct Y as (Y1 & Y2 & Y3). apply split_path_of. unfold last_component. rewrite Y1, app_assoc. splits; auto.
          intros Z. apply in_app_iff in Z. destruct Z as [Z|[Z|[]]]; auto. }
        destruct found as [[b e]|].
        * destruct H as [x H]. exists (x ++ [c]). now apply X.
        * now apply X in H. }
  specialize (G s [] None eq_refl). cbn [rev app] in G. exact G.
Qed.

(** ** Heaps *)

Lemma live_app a b : live (a ++ b) = live a + live b.
Proof. unfold live. now rewrite filter_app, app_length. Qed.

Lemma live_nones n : live (repeat None n) = 0.
Proof. unfold live. induction n; auto. Qed.

Lemma live_cons b h : live (b :: h) = (if is_live b then 1 else 0) + live h.
Proof. unfold live. cbn [filter]. now destruct (is_live b). Qed.

Lemma bounded_app (a b : heap) : bounded (a ++ b) -> bounded a.
Proof. unfold bounded. rewrite size_app. lia. Qed.

Lemma bounded_free h i : bounded h -> bounded (set_block h i None).
Proof. unfold bounded. pose proof (size_free h i). lia. Qed.

Lemma cstr_string (h : heap) s rest b : nonul s -> cstr_at (h ++ Some (map Some s ++ Some NUL :: rest) :: b) (mkPtr (length h) 0) s.
Proof. intros N. apply (cstr_block _ _ _ rest); [|exact N]. rewrite nth_error_app2, Nat.sub_diag; [reflexivity|lia]. Qed.

Lemma free_at (h : heap) cells b : free (mkPtr (length h) 0) (h ++ Some cells :: b) = done (tt, h ++ None :: b).
Proof.
  rewrite (free_ok _ _ cells); [|rewrite nth_error_app2, Nat.sub_diag; [reflexivity|lia]].
  replace (length h) with (length h + 0) by lia. now rewrite set_app_r.
Qed.

Lemma size_cons b h : heap_size (b :: h) = block_size b + heap_size h.
Proof. reflexivity. Qed.

Lemma bounded_drop (a : heap) x b : bounded (a ++ x :: b) -> bounded (a ++ None :: b).
Proof. unfold bounded. rewrite !size_app, !size_cons. cbn [block_size]. lia. Qed.

Lemma hands_cstr lost h q r h' : hands_over lost h q r h' -> cstr_at h' q r.
Proof.
  intros (a & b & c & -> & -> & (rest & -> & N) & _). rewrite app_assoc. now apply cstr_string.
Qed.

Lemma hands_free lost h q r h' k : hands_over lost h q r h' ->
  exists a, free q (h' ++ k) = done (tt, h ++ a ++ k) /\ live a = lost /\ length (h ++ a) = length h' /\ heap_size (h ++ a) <= heap_size h'.
Proof.
  intros (a & b & c & -> & -> & (rest & -> & N) & L). exists (a ++ None :: c). splits.
  - rewrite app_assoc, <- app_assoc. cbn [app]. rewrite free_at. now rewrite <- !app_assoc.
  - rewrite live_app, live_cons. cbn [is_live]. lia.
  - rewrite !app_length. reflexivity.
  - rewrite !size_app, !size_cons. cbn [block_size]. lia.
Qed.

(** ** A copy is cleaned *)

Section proofs.

Context {al : allocator}.
Hypothesis Lim : limited al.

Definition cleaned (o : options_t) (h : heap) (name : str) (c : option ptr * heap) (m : option str) : Prop :=
  let (hold, h') := c in
  bounded h' /\
  match hold, m with
  | Some q, Some r => hands_over 0 h q r h' /\ is_protected name = false /\
      sequence_run_filters (o_platform o) (o_sequence_to_use o) (Some name) = Ok (Some r)
  | None, None => leaves_behind (if is_protected name then 1 else 0) h h' /\
      (is_protected name = false -> sequence_run_filters (o_platform o) (o_sequence_to_use o) (Some name) = Ok None)
  | _, _ => False
  end.

Lemma clean_copy_sim tr (h : heap) p s o : cstr_at h p s -> bounded h ->
  sim (fun _ => cleaned o h s) tr (c_clean_copy p o h)
    (talking (sequence_run_says (o_platform o) (o_sequence_to_use o) (if is_protected s then None else Some s))).
Proof.
  intros C Bd. pose proof (cstr_at_nonul _ _ _ C) as N. unfold c_clean_copy. apply (sim_strdup _ Lim _ _ s); [exact C|exact (bounded_fits _ _ _ Bd C)|]. intros Bd1.
  set (h1 := h ++ [Some (map Some s ++ [Some NUL])]) in *.
  assert (C1 : cstr_at h1 (mkPtr (length h) 0) s) by now apply cstr_string.
  eapply sim_mem; [exact (protected_ok _ _ _ C1)|]. cbv zeta.
  assert (Q : forall m : talk (option str), talking m = pbind (talking m) Ret).
  { intros m. rewrite talking_bind. unfold talking. now destruct (snd m). }
  rewrite Q. clear Q. unfold cbind at 1, inside at 1. destruct (is_protected s) eqn:P.
  - apply (sim_sequence _ tr h1 _ _ (fun hold => cbind (cret tt) (fun _ => cret hold)) _ (sequence_none _ _ h1 Bd1)).
    + intros tr' q r h2 E. exfalso. rewrite sequence_result in E. unfold sequence_run_filters in E. destruct (o_sequence_to_use o); discriminate.
    + intros tr' n E _ Bd2. apply sim_ret. unfold cleaned. split; [exact Bd2|]. rewrite P. split; [|discriminate].
      exists (Some (map Some s ++ [Some NUL]) :: repeat None n). unfold h1. rewrite <- app_assoc. split; [reflexivity|].
      rewrite live_cons, live_nones. reflexivity.
  - apply (sim_sequence _ tr h1 _ _ (fun hold => cbind (inside (free (mkPtr (length h) 0))) (fun _ => cret hold)) _
             (sequence_same Lim _ _ h1 _ s C1 (bounded_fits _ _ _ Bd1 C1))).
    + intros tr' q r h2 E _ (i & j & rest & -> & -> & Nr & Bd2). unfold h1. rewrite <- app_assoc. cbn [app].
      eapply sim_mem; [apply free_at|]. apply sim_ret. unfold cleaned. rewrite sequence_result in E. splits; auto.
      * unfold h1 in Bd2. rewrite <- app_assoc in Bd2. exact (bounded_drop _ _ _ Bd2).
      * exists (None :: repeat None i), (Some (map Some r ++ Some NUL :: rest)), (repeat None j). splits; auto.
        -- unfold h1. rewrite !app_length. cbn [length]. rewrite repeat_length. f_equal. lia.
        -- exists rest. auto.
        -- rewrite live_cons, !live_nones. reflexivity.
    + intros tr' n E _ Bd2. unfold h1. rewrite <- app_assoc. cbn [app]. eapply sim_mem; [apply free_at|]. apply sim_ret. unfold cleaned. rewrite sequence_result in E. splits; auto.
      * unfold h1 in Bd2. rewrite <- app_assoc in Bd2. exact (bounded_drop _ _ _ Bd2).
      * exists (None :: repeat None n). split; [reflexivity|]. rewrite P, live_cons, live_nones. reflexivity.
Qed.

(** ** parse_file *)

(** A block is written in two parts. *)
Lemma write_two (h : heap) n a b k : n = length a + length b ->
  c_write (mkPtr (length h) 0) a (h ++ Some (repeat None n) :: k) =
    done (mkPtr (length h) (length a), h ++ Some (map Some a ++ repeat None (length b)) :: k) /\
  c_write (mkPtr (length h) (length a)) b (h ++ Some (map Some a ++ repeat None (length b)) :: k) =
    done (mkPtr (length h) n, h ++ Some (map Some (a ++ b)) :: k).
Proof.
  intros ->. assert (X : forall cells, nth_error (h ++ Some cells :: k) (length h) = Some (Some cells)).
  { intros cells. rewrite nth_error_app2, Nat.sub_diag; [reflexivity|lia]. }
  assert (Y : forall cells cells', set_block (h ++ Some cells :: k) (length h) (Some cells') = h ++ Some cells' :: k).
  { intros cells cells'. replace (length h) with (length h + 0) by lia. now rewrite set_app_r. }
  split.
  - rewrite (write_over a _ _ 0 _ (X _)) by (rewrite repeat_length; lia). rewrite Y. cbn [firstn app Nat.add]. do 3 f_equal. f_equal. f_equal. f_equal.
    rewrite repeat_app, skipn_app, repeat_length, Nat.sub_diag. rewrite skipn_all2; [reflexivity|rewrite repeat_length; lia].
  - rewrite (write_over b _ _ _ _ (X _)) by (rewrite app_length, map_length, repeat_length; lia). rewrite Y. do 4 f_equal.
    rewrite firstn_app, map_length, Nat.sub_diag, firstn_O, app_nil_r. rewrite firstn_all2 by (rewrite map_length; lia).
    rewrite skipn_all2 by (rewrite app_length, map_length, repeat_length; lia). rewrite app_nil_r. now rewrite map_app.
Qed.

Definition file_done (o : options_t) (h : heap) (filename : str) (c : ptr * heap) (r : str) : Prop :=
  bounded (snd c) /\ hands_over (lost_by_file o filename) h (fst c) r (snd c).

Lemma parse_file_sim tr (h : heap) p s o : cstr_at h p s -> bounded h ->
  sim (fun _ => file_done o h s) tr (c_parse_file p o h) (parse_file s o).
Proof.
  intros C Bd. pose proof (cstr_at_nonul _ _ _ C) as N. pose proof (bounded_fits _ _ _ Bd C) as F.
  unfold c_parse_file, parse_file. destruct (split_path s) as [dir base] eqn:Sp.
  eapply sim_mem; [exact (strlen_ok _ _ _ C)|]. cbv zeta. rewrite (size_t_small _ F).
  apply (sim_malloc _ Lim). intros Bd1.
  assert (Ln : N.to_nat (strlen s + 1) = length s + 1) by (unfold strlen; lia). rewrite Ln in *.
  set (old := mkPtr (length h) 0).
  set (oldb := Some (map Some s ++ [Some NUL]) : option (list cell)).
  set (h1 := h ++ [oldb]).
  assert (E1 : c_memcpy old p (length s + 1) (h ++ [Some (repeat None (length s + 1))]) = done (tt, h1)).
  { unfold old. rewrite memcpy_ok; [|now apply cstr_old|apply cstr_live in C; cbn; lia].
    destruct (write_two h (length s + 1) (s ++ [NUL]) [] [] ltac:(rewrite app_length; cbn; lia)) as [W _].
    rewrite (mbind_done _ _ _ _ _ W). cbn [length repeat]. rewrite app_nil_r. unfold h1, oldb. rewrite map_app. reflexivity. }
  eapply sim_mem; [exact E1|]. clear E1.
  assert (C1 : cstr_at h1 old s) by now apply cstr_string.
  assert (Bd1' : bounded h1).
  { revert Bd1. unfold bounded, h1, oldb. rewrite !size_app, !size_one, repeat_length, app_length, map_length. auto. }
  destruct (strrchr_ok "/"%byte h1 old s C1 ltac:(discriminate)) as [E2 _]. eapply sim_mem; [exact E2|]. clear E2. cbv zeta.
  pose proof (strrchr_split s) as X. apply split_path_spec in Sp as Sp'. destruct Sp' as (Es & Nb & _).
  set (base_ptr := match option_map _ _ with Some p => plus p 1 | None => old end).
  assert (Eb : base_ptr = plus old (length dir)).
  { unfold base_ptr. destruct (strrchr s "/"%byte) as [[before ext]|]; cbn [option_map].
    - destruct X as [b X]. rewrite Sp in X. injection X as -> ->. unfold plus. cbn [p_block p_off]. rewrite app_length, rev_length. reflexivity.
    - rewrite Sp in X. injection X as -> ->. unfold plus. cbn [length]. rewrite Nat.add_0_r. reflexivity. }
  rewrite Eb. clear base_ptr Eb X.
  assert (Cb : cstr_at h1 (plus old (length dir)) base) by (apply cstr_skip; now rewrite <- Es).
  eapply sim_bind; [exact (clean_copy_sim tr h1 _ base o Cb Bd1')|].
  intros tr' [[work|] h2] [r|] [Bd2 H]; try contradiction.
  2:{ destruct H as ((a & -> & La) & Pr). apply sim_ret. split; [exact Bd2|]. cbn [fst snd]. exists [], oldb, a. unfold h1. rewrite <- app_assoc, app_nil_r. splits; auto.
      - exists []. auto.
      - rewrite La. unfold lost_by_file. rewrite Sp. cbn [snd]. cbn [live filter length Nat.add]. destruct (is_protected base); [reflexivity|]. now rewrite Pr. }
  destruct H as (H & Pr & Er). pose proof (hands_cstr _ _ _ _ _ H) as Cw.
  assert (Cb2 : cstr_at h2 (plus old (length dir)) base) by (destruct H as (a & b & c & -> & _); now apply cstr_old).
  assert (Co2 : cstr_at h2 old s) by (destruct H as (a & b & c & -> & _); now apply cstr_old).
  eapply sim_mem; [exact (equal_ok _ _ _ _ _ Cb2 Cw)|].
  destruct (str_eqb base r) eqn:Eq.
  { destruct H as (a & b & c & -> & -> & (rest & -> & Nr) & L). apply sim_ret. split; [exact Bd2|]. cbn [fst snd].
    exists [], oldb, (a ++ Some (map Some r ++ Some NUL :: rest) :: c). unfold h1. rewrite <- !app_assoc, app_nil_r. splits; auto.
    - exists []. auto.
    - unfold lost_by_file. rewrite Sp. cbn [snd]. rewrite Pr, Er, Eq. rewrite live_app, live_cons. cbn [is_live live filter length]. lia. }
  assert (Lost : lost_by_file o s = 0) by (unfold lost_by_file; rewrite Sp; cbn [snd]; now rewrite Pr, Er, Eq).
  pose proof (cstr_at_nonul _ _ _ Cw) as Nr.
  eapply sim_mem; [exact (strlen_ok _ _ _ Cw)|].
  assert (Ld : p_off (plus old (length dir)) - p_off old = length dir) by (cbn; lia). rewrite Ld.
  assert (Sz : size_t (N.of_nat (length dir) + strlen r + 1) = N.of_nat (length dir + (length r + 1))).
  { apply cstr_size in Cw, Co2. rewrite Es, app_length in Co2. unfold bounded, limit in Bd2. rewrite size_t_small; unfold strlen; lia. }
  rewrite Sz. clear Sz. apply (sim_malloc _ Lim). intros Bd3. rewrite Nnat.Nat2N.id in *.
  set (new := mkPtr (length h2) 0).
  destruct (write_two h2 (length dir + (length r + 1)) dir (r ++ [NUL]) []) as [W1 W2]; [rewrite app_length; reflexivity|].
  assert (Lv : p_block old < length h2) by (exact (cstr_live _ _ _ Co2)).
  assert (Lw : p_block work < length h2) by (exact (cstr_live _ _ _ Cw)).
  eapply sim_mem.
  { unfold new. rewrite (strncpy_ok dir base); [|rewrite <- Es; now apply cstr_old|cbn in *; lia]. rewrite (mbind_done _ _ _ _ _ W1). reflexivity. }
  eapply sim_mem.
  { unfold c_strcpy. erewrite mbind_done; [|eapply read_ok, cstr_old, Cw]. unfold new, plus. cbn [p_block p_off Nat.add]. rewrite (mbind_done _ _ _ _ _ W2). reflexivity. }
  rewrite app_assoc, map_app. cbn [map]. set (newb := Some (map Some (dir ++ r) ++ [Some NUL]) : option (list cell)).
  assert (Nn : nonul (dir ++ r)).
  { intros I. apply in_app_iff in I. destruct I as [I|I]; [|now apply Nr]. apply N. rewrite Es. apply in_app_iff. now left. }
  destruct (hands_free _ _ _ _ _ [newb] H) as (a & Ef & La & Le & Ls). eapply sim_mem; [exact Ef|]. clear Ef.
  assert (Bd4 : bounded ((h1 ++ a) ++ [newb])).
  { revert Bd3. unfold bounded, newb. rewrite !(size_app _ [_]), !size_one, repeat_length, app_length, map_length, app_length. cbn [length]. lia. }
  assert (C4o : cstr_at (h1 ++ a ++ [newb]) old s) by now apply cstr_old.
  assert (C4n : cstr_at (h1 ++ a ++ [newb]) new (dir ++ r)).
  { unfold new. rewrite <- Le, app_assoc. now apply cstr_string. }
  assert (Keep : free new (h1 ++ a ++ [newb]) = done (tt, h1 ++ a ++ [None])).
  { unfold new. rewrite <- Le, !app_assoc. apply free_at. }
  assert (Fin : forall tr, sim (fun _ => file_done o h s) tr (cbind (inside (free new)) (fun _ => cret old) (h1 ++ a ++ [newb])) (Ret s)).
  { intros tr1. eapply sim_mem; [exact Keep|]. apply sim_ret. split; cbn [fst snd].
    - rewrite app_assoc. exact (bounded_drop _ _ _ Bd4).
    - rewrite Lost. exists [], oldb, (a ++ [None]). unfold h1. rewrite <- !app_assoc, app_nil_r. splits; auto.
      + exists []. auto.
      + rewrite live_app, La. reflexivity. }
  eapply sim_mem; [exact (read_ok _ _ _ C4o)|]. apply sim_sys. intros st _. destruct st as [st|msg]; [|apply Fin].
  eapply sim_mem; [exact (read_ok _ _ _ C4n)|]. apply sim_sys. intros st' _.
  destruct (match st' with inl x => is_other_file st x | inr _ => false end).
  { eapply sim_mem; [exact (read_ok _ _ _ C4o)|]. eapply sim_mem; [exact (read_ok _ _ _ C4n)|]. apply sim_sys. intros [] _. apply Fin. }
  eapply sim_bind with (R := fun _ (c : unit * heap) (_ : unit) => snd c = h1 ++ a ++ [newb]).
  { destruct ((0 <? o_verbose o)%N || o_dry_run o)%bool; [|now apply sim_ret].
    eapply sim_mem; [exact (read_ok _ _ _ C4o)|]. eapply sim_mem; [exact (read_ok _ _ _ C4n)|]. apply sim_call. intros [] _. now apply sim_ret. }
  intros tr1 [[] h4] [] E4. cbn [snd] in E4. subst h4. destruct (o_dry_run o); [apply Fin|].
  eapply sim_mem; [exact (read_ok _ _ _ C4o)|]. eapply sim_mem; [exact (read_ok _ _ _ C4n)|]. apply sim_sys. intros [msg|] _.
  { eapply sim_mem; [exact (read_ok _ _ _ C4o)|]. eapply sim_mem; [exact (read_ok _ _ _ C4n)|]. apply sim_sys. intros [] _. apply Fin. }
  eapply sim_mem. { unfold h1, old, oldb. rewrite <- app_assoc. apply free_at. }
  apply sim_ret. split; cbn [fst snd].
  - revert Bd4. unfold h1. rewrite <- !app_assoc. apply bounded_drop.
  - rewrite Lost. exists (None :: a), newb, []. splits; auto.
    + unfold new. rewrite <- Le. unfold h1. rewrite !app_length. cbn [length]. f_equal. lia.
    + exists []. auto.
    + rewrite live_cons, La. reflexivity.
Qed.

(** ** parse_dir *)

Lemma opened_app a b : opened_in (a ++ b) = opened_in a + opened_in b.
Proof. unfold opened_in. now rewrite filter_app, app_length. Qed.

Lemma asked_app a b : asked_in (a ++ b) = asked_in a + asked_in b.
Proof. unfold asked_in. now rewrite filter_app, app_length. Qed.

Definition opens_nothing (c : call) : Prop := match c with Opendir _ => False | _ => True end.

Lemma opened_none tr : Forall (fun e => match e with Ev c _ => opens_nothing c end) tr -> opened_in tr = 0.
Proof.
  unfold opened_in. induction 1 as [|[c r] tr H F IH]; [reflexivity|]. cbn [filter]. destruct c; cbn [opens_directory opens_nothing] in *; tauto.
Qed.

Lemma parse_file_opens p o : only opens_nothing (parse_file p o).
Proof.
  unfold parse_file. destruct (split_path p) as [dir base]. apply only_bind; [apply only_talking, Forall_forall; cbn; auto|].
  intros [w|]; [|exact I]. destruct (str_eqb base w); [exact I|]. cbn [pbind sys only]. split; [exact I|]. intros [st|m]; [|exact I].
  cbn [pbind sys only]. split; [exact I|]. intros st'. destruct (match st' with inl x => _ | inr _ => _ end).
  { cbn. auto. }
  apply only_bind; [destruct (_ || _)%bool; cbn; auto|]. intros _. destruct (o_dry_run o); [exact I|]. cbn [pbind sys only]. split; [exact I|].
  intros [m|]; cbn; auto.
Qed.

(** [lost] blocks more than before, when the calls went from [tr0] to [tr]: one for every
    directory opened, and at most one more for every question. *)
Definition lost_between (tr0 tr : list event) (lost0 lost : nat) : Prop :=
  opened_in tr + lost0 <= opened_in tr0 + lost /\ lost + opened_in tr0 + asked_in tr0 <= lost0 + opened_in tr + asked_in tr.

Definition dir_done (tr0 : list event) (h : heap) (tr : list event) (c : option filelist * heap) (r : option filelist) : Prop :=
  fst c = r /\ bounded (snd c) /\ exists a, snd c = h ++ a /\ lost_between tr0 tr 0 (live a).

Definition loop_done (tr0 : list event) (h : heap) (size : nat) (k : heap) (tr : list event) (c : option filelist * heap) (r : option filelist) : Prop :=
  fst c = r /\ bounded (snd c) /\
  exists cells a, snd c = h ++ Some cells :: a /\ length cells = size /\ lost_between tr0 tr (live k) (live a).

Lemma lost_file o s : lost_by_file o s <= 1.
Proof.
  unfold lost_by_file. cbv zeta. destruct (is_protected _); [lia|]. destruct (sequence_run_filters _ _ _) as [[r|]|w|c]; try lia. destruct (str_eqb _ _); lia.
Qed.

Lemma nonul_path s d n : nonul s -> nonul d -> nonul (firstn n (s ++ bs "/" ++ d)).
Proof.
  intros Ns Nd. apply nonul_firstn. intros X. apply in_app_iff in X. destruct X as [X|X]; [now apply Ns|]. apply in_app_iff in X.
  destruct X as [X|X]; [|now apply Nd]. cbn in X. destruct X as [X|[]]. discriminate.
Qed.

Lemma dir_sim o : forall fuel,
  (forall tr (h : heap) p s ign, cstr_at h p s -> bounded h ->
     sim (dir_done tr h) tr (c_parse_dir fuel o p ign h) (parse_dir fuel o s ign)) /\
  (forall tr (h k : heap) p s cells handle st ign, cstr_at h p s -> length cells = length s + 1024 -> bounded (h ++ Some cells :: k) ->
     sim (loop_done tr h (length s + 1024) k) tr
       (c_dir_loop fuel o p (mkPtr (length h) 0) (strlen s + 1024) handle st ign (h ++ Some cells :: k))
       (dir_loop fuel o s handle st ign)).
Proof.
  induction fuel as [|fuel [IHd IHl]]; (split; [intros tr h p s ign C Bd|intros tr h k p s cells handle st ign C Lc Bd]); [apply sim_stop..| |].
  - cbn [c_parse_dir parse_dir]. eapply sim_mem; [exact (read_ok _ _ _ C)|]. apply sim_sys. intros [st|m] _.
    2:{ apply sim_ret. unfold dir_done. cbn [fst snd]. splits; auto. exists []. rewrite app_nil_r. split; [reflexivity|].
        unfold lost_between. rewrite opened_app, asked_app. cbn. lia. }
    destruct (isdir st); cbn [negb].
    2:{ apply sim_ret. unfold dir_done. cbn [fst snd]. splits; auto. exists []. rewrite app_nil_r. split; [reflexivity|].
        unfold lost_between. rewrite opened_app, asked_app. cbn. lia. }
    eapply sim_mem; [exact (strlen_ok _ _ _ C)|]. cbv zeta.
    assert (Sz : size_t (strlen s + 1024) = (strlen s + 1024)%N).
    { apply cstr_size in C. unfold bounded, limit in Bd. apply size_t_small. unfold strlen. lia. }
    rewrite Sz. apply (sim_malloc _ Lim). intros Bd1. eapply sim_mem; [exact (read_ok _ _ _ (cstr_old _ _ _ _ C))|].
    apply sim_sys. intros [handle|emfile message] _.
    + eapply sim_bind.
      { apply (IHl _ h [] p s); [exact C|rewrite repeat_length; unfold strlen; lia|exact Bd1]. }
      intros tr' [ign' h'] r (E & Bd' & cells & a & Eh & Lc & Lo). cbn [fst snd] in *. subst r h'. apply sim_sys. intros [] _. apply sim_ret.
      unfold dir_done. cbn [fst snd]. splits; auto. eexists. split; [reflexivity|]. revert Lo. unfold lost_between.
      rewrite live_cons, !opened_app, !asked_app. cbn [is_live]. cbn. lia.
    + apply sim_sys. intros [] _. eapply sim_mem; [apply free_at|]. destruct emfile; [apply sim_stop|]. apply sim_ret.
      unfold dir_done. cbn [fst snd]. splits; auto; [exact (bounded_drop _ _ _ Bd1)|]. eexists. split; [reflexivity|].
      unfold lost_between. rewrite !opened_app, !asked_app. cbn. lia.
  - cbn [c_dir_loop dir_loop]. apply sim_sys. intros [d|] Fd; cbn [fair] in Fd.
    2:{ apply sim_ret. unfold loop_done. cbn [fst snd]. splits; auto. exists cells, k. splits; auto.
        unfold lost_between. rewrite !opened_app, !asked_app. cbn. lia. }
    set (tr1 := tr ++ _).
    eapply sim_bind with (R := fun tr2 c r => tr2 = tr1 /\ c = (r, h ++ Some cells :: k)).
    { destruct (ignore_file d ign) as [x|w|c]; cbn; [now apply sim_ret|apply sim_stop..]. }
    intros tr2 cc [ignored ign1] [-> ->]. cbv beta iota.
    assert (E1 : opened_in tr1 = opened_in tr /\ asked_in tr1 = asked_in tr).
    { unfold tr1. rewrite opened_app, asked_app. cbn. lia. }
    clearbody tr1. destruct E1 as [E1 E1'].
    assert (Loop : forall tr3 (k3 : heap) cells3 st3 ign3, length cells3 = length s + 1024 -> bounded (h ++ Some cells3 :: k3) ->
       lost_between tr tr3 (live k) (live k3) ->
       sim (loop_done tr h (length s + 1024) k) tr3
         (c_dir_loop fuel o p (mkPtr (length h) 0) (strlen s + 1024) handle st3 ign3 (h ++ Some cells3 :: k3)) (dir_loop fuel o s handle st3 ign3)).
    { intros tr3 k3 cells3 st3 ign3 L3 Bd3 Lo3. eapply sim_weaken; [apply (IHl tr3 h k3 p s); auto|].
      intros tr4 [ign4 h4] r (E & Bd4 & cells4 & a & Eh & L4 & Lo4). unfold loop_done. splits; auto. exists cells4, a. splits; auto.
      unfold lost_between in *. lia. }
    destruct ignored; [apply Loop; auto; unfold lost_between; lia|].
    eapply sim_mem; [exact (read_ok _ _ _ (cstr_old _ _ _ _ C))|].
    pose proof (cstr_at_nonul _ _ _ C) as Ns.
    assert (W : exists cells1, c_snprintf (mkPtr (length h) 0) (strlen s + 1024) (s ++ bs "/" ++ d) (h ++ Some cells :: k) = done (tt, h ++ Some cells1 :: k) /\
              length cells1 = length s + 1024 /\ exists rest, cells1 = map Some (entry_path s d) ++ Some NUL :: rest).
    { unfold c_snprintf. replace (N.to_nat (strlen s + 1024) - 1) with (length s + 1023) by (unfold strlen; lia). fold (entry_path s d).
      assert (Le : length (entry_path s d) <= length s + 1023) by apply firstn_le_length.
      eexists. split.
      - rewrite (mbind_done _ _ _ _ _ (write_over (entry_path s d ++ [NUL]) (h ++ Some cells :: k) (length h) 0 cells ltac:(rewrite nth_error_app2, Nat.sub_diag; [reflexivity|lia]) ltac:(rewrite app_length; cbn [length]; lia))).
        replace (length h) with (length h + 0) by lia. rewrite set_app_r. reflexivity.
      - cbn [firstn app]. split.
        + rewrite app_length, map_length, skipn_length. rewrite app_length. cbn [length]. lia.
        + rewrite map_app, <- app_assoc. cbn [map app]. eauto. }
    destruct W as (cells1 & W & L1 & rest1 & Ec1). eapply sim_mem; [exact W|]. clear W.
    assert (Bd1 : bounded (h ++ Some cells1 :: k)).
    { revert Bd. unfold bounded. rewrite !size_app, !size_cons. cbn [block_size]. now rewrite Lc, L1. }
    assert (C1 : cstr_at (h ++ Some cells1 :: k) (mkPtr (length h) 0) (entry_path s d)).
    { rewrite Ec1. apply cstr_string. now apply nonul_path. }
    eapply sim_mem; [exact (read_ok _ _ _ C1)|]. apply sim_sys. intros st' _. cbv zeta. set (st1 := match st' with inl x => x | inr _ => st end).
    set (tr2 := tr1 ++ _). assert (E2 : opened_in tr2 = opened_in tr /\ asked_in tr2 = asked_in tr + 1).
    { unfold tr2. rewrite opened_app, asked_app. cbn. lia. }
    clearbody tr2 st1. destruct E2 as [E2 E2'].
    eapply sim_bind with (R := loop_done tr h (length s + 1024) k).
    2:{ intros tr3 [ign3 h3] r (E & Bd3 & cells3 & k3 & Eh & L3 & Lo3). cbn [fst snd] in *. subst r h3. now apply Loop. }
    assert (File : forall (f : ptr -> cprog (option filelist)) g,
       (forall tr3 q r a b c, Forall (fun e => match e with Ev c _ => opens_nothing c end) tr3 -> bounded (h ++ Some cells1 :: k ++ a ++ b :: c) ->
          q = mkPtr (length (h ++ Some cells1 :: k ++ a)) 0 -> holds b r -> live a + live c <= 1 ->
          sim (loop_done tr h (length s + 1024) k) (tr2 ++ tr3) (f q (h ++ Some cells1 :: k ++ a ++ b :: c)) (g r)) ->
       sim (loop_done tr h (length s + 1024) k) tr2 (cbind (c_parse_file (mkPtr (length h) 0) o) f (h ++ Some cells1 :: k)) (pbind (parse_file (entry_path s d) o) g)).
    { intros f g K. eapply sim_bind; [apply sim_only; [apply (parse_file_sim tr2 _ _ _ o C1 Bd1)|apply parse_file_opens]|].
      intros tr3 [q h3] r [(Bd3 & a & b & c & Eh & Eq & Hr & Hl) (more & -> & Fm)]. cbn [fst snd] in *. subst h3.
      rewrite <- app_assoc in *. cbn [app] in *. apply K; auto. pose proof (lost_file o (entry_path s d)). lia. }
    destruct (isdir st1); [|destruct (isreg st1 || o_special o)%bool].
    + apply File. intros tr3 q r a b c F3 Bd3 -> Hb Hl. apply opened_none in F3.
      set (h3 := h ++ Some cells1 :: k ++ a ++ b :: c) in *.
      set (Q := mkPtr (length (h ++ Some cells1 :: k ++ a)) 0).
      assert (E3 : h3 = (h ++ Some cells1 :: k ++ a) ++ b :: c) by (unfold h3; rewrite <- app_assoc; cbn [app]; rewrite <- app_assoc; reflexivity).
      assert (Fr : forall x, free Q (h3 ++ x) = done (tt, h ++ Some cells1 :: (k ++ a ++ None :: c ++ x))).
      { intros x. rewrite E3, <- app_assoc. destruct Hb as (rest & -> & _). cbn [app]. unfold Q. rewrite free_at.
        rewrite <- app_assoc. cbn [app]. rewrite <- app_assoc. reflexivity. }
      assert (After : forall tr4 x ign4, bounded (h3 ++ x) -> lost_between (tr2 ++ tr3) tr4 0 (live x) ->
        sim (loop_done tr h (length s + 1024) k) tr4 (cbind (inside (free Q)) (fun _ => cret ign4) (h3 ++ x)) (Ret ign4)).
      { intros tr4 x ign4 Bx Lx. eapply sim_mem; [exact (Fr x)|]. apply sim_ret. unfold loop_done. cbn [fst snd]. splits; auto.
        - rewrite E3, <- app_assoc in Bx. apply bounded_drop in Bx. rewrite <- app_assoc in Bx. cbn [app] in Bx. now rewrite <- app_assoc in Bx.
        - eexists _, _. splits; [reflexivity|exact L1|]. revert Lx. unfold lost_between. rewrite !live_app, live_cons, live_app. cbn [is_live].
          rewrite opened_app, asked_app. lia. }
      assert (Cq : cstr_at h3 Q r) by (rewrite E3; destruct Hb as (rest & -> & Nr); now apply cstr_string).
      eapply sim_then with (R := dir_done (tr2 ++ tr3) h3).
      * destruct (o_recurse o); [exact (IHd _ _ _ _ _ Cq Bd3)|]. apply sim_ret. unfold dir_done. cbn [fst snd]. splits; auto. exists []. rewrite app_nil_r. split; [reflexivity|].
        unfold lost_between. cbn. lia.
      * intros tr4 [ign4 h4] r4 (E & Bd4 & x & Eh & Lo). cbn [fst snd] in *. subst r4 h4. now apply After.
    + apply File. intros tr3 q r a b c F3 Bd3 -> (rest & -> & Nr) Hl. apply opened_none in F3.
      assert (Eh : forall b : option (list cell), h ++ Some cells1 :: k ++ a ++ b :: c = (h ++ Some cells1 :: k ++ a) ++ b :: c).
      { intros b. rewrite <- app_assoc. cbn [app]. now rewrite <- app_assoc. }
      rewrite Eh in *. eapply sim_mem; [apply free_at|]. apply sim_ret. unfold loop_done. cbn [fst snd]. splits; auto; [exact (bounded_drop _ _ _ Bd3)|].
      rewrite <- Eh.
      eexists _, _. splits; [reflexivity|exact L1|]. unfold lost_between. rewrite !live_app, live_cons. cbn [is_live]. rewrite opened_app, asked_app. lia.
    + apply sim_ret. unfold loop_done. cbn [fst snd]. splits; auto. exists cells1, k. splits; auto. unfold lost_between. lia.
Qed.

End proofs.
