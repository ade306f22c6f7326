(** * Proofs about processing files: single files, ignored names, concrete runs *)

From Verif Require Import Base BaseFacts CleanString Filter Filelist Prog ProgFacts Warnings WarningsProofs File FS FileSpec FilelistProofs
  FileProofs FSProofs WalkProofs.

Local Arguments filter_run : simpl never.
Local Arguments sequence_run_filters : simpl never.

(** ** parse_file as an equation *)

Lemma parse_file_proper o p new dir base :
  last_component p dir base -> proper_rename o p new ->
  parse_file p o = told (remarks o base) (Call (Lstat p) (fun old_stat =>
    match old_stat with
    | inr _ => Ret p
    | inl old =>
      let! new_stat := sys (Lstat new) in
      if match new_stat with inl new => is_other_file old new | inr _ => false end then
        let! _ := print Stderr (refusal p new (bs "file already exists")) in Ret p
      else
        let! _ := (if ((0 <? o_verbose o)%N || o_dry_run o)%bool
                   then print Stdout (announcement p new) else Ret tt) in
        if o_dry_run o then Ret p
        else
          let! err := sys (Rename p new) in
          match err with
          | Some message => let! _ := print Stderr (refusal p new message) in Ret p
          | None => Ret new
          end
    end)).
Proof.
  intros L (dir' & base' & clean & L' & -> & B & P1 & P2 & N & E).
  destruct (last_component_fun _ _ _ _ _ L' L) as [-> ->]. clear L'.
  unfold parse_file, remarks. rewrite (split_path_of _ _ _ L).
  replace (is_protected base) with false.
  2: { symmetry. destruct (is_protected base) eqn:P; auto. apply is_protected_iff in P. destruct P; contradiction. }
  rewrite talking_sequence, told_bind, E. simpl lift. cbn [pbind].
  replace (str_eqb base clean) with false by (symmetry; apply str_eqb_neq; congruence).
  reflexivity.
Qed.

Lemma proper_rename_fun o p new new' : proper_rename o p new -> proper_rename o p new' -> new = new'.
Proof.
  intros (d & b & c & L & -> & _ & _ & _ & _ & E) (d' & b' & c' & L' & -> & _ & _ & _ & _ & E').
  destruct (last_component_fun _ _ _ _ _ L L') as [<- <-]. rewrite E in E'. congruence.
Qed.

Lemma proper_component o p new : proper_rename o p new -> exists dir base, last_component p dir base.
Proof. intros (dir & base & clean & L & _). eauto. Qed.

(** A path whose last component the sequence leaves alone is not even looked at. *)
Lemma parse_file_clean o p dir base :
  last_component p dir base ->
  sequence_run_filters (o_platform o) (o_sequence_to_use o) (Some base) = Ok (Some base) ->
  parse_file p o = if is_protected base then Ret p else told (remarks o base) (Ret p).
Proof.
  intros L E. unfold parse_file, remarks. rewrite (split_path_of _ _ _ L), talking_sequence, told_bind.
  destruct (is_protected base) eqn:P.
  - destruct (o_sequence_to_use o) as [s|]; [|discriminate]. unfold sequence_run_filters, sequence_run_says.
    reflexivity.
  - rewrite E. simpl. now rewrite (proj2 (str_eqb_eq base base) eq_refl).
Qed.

(** The warnings may be read before anything else. *)
Lemma runs_told {S A} (step : S -> forall c, answer c -> S -> Prop) (interference : S -> S -> Prop) l (p : prog A) s tr s' p' :
  (forall s0 out text, interference s0 s0 /\ step s0 (Print out text) tt s0) ->
  runs step interference p s tr s' p' -> runs step interference (told l p) s (map heard l ++ tr) s' p'.
Proof.
  intros H R. induction l as [|[out text] l IH]; [exact R|]. cbn [told map app].
  destruct (H s out text) as [H1 H2]. exact (runs_call step interference (Print out text) _ s s tt s _ _ _ H1 H2 IH).
Qed.

Lemma fs_prints w s0 out text : alone s0 s0 /\ fs_step w s0 (Print out text) tt s0.
Proof. split; reflexivity. Qed.

(** ** Dry run and real run of one file (C28) *)

Lemma proper_dry b o p new : proper_rename (with_dry_run b o) p new <-> proper_rename o p new.
Proof. reflexivity. Qed.

(** The calls up to the decision. *)
Lemma attempt_iff w o t p new :
  (exists tr t' k, runs (fs_step w) alone (parse_file p (with_dry_run false o)) t tr t' (Call (Rename p new) k)) <->
  would_rename w o t p new.
Proof.
  set (o' := with_dry_run false o). split.
  - intros (tr & t' & k & R).
    assert (W : wp (fs_step w) alone (fun _ _ => True)
       (fun _ t1 c => match c with Rename a b => t1 = t /\ would_rename w o t a b | _ => True end)
       (parse_file p o') (fun _ _ _ => True) [] t).
    { apply (parse_file_wp _ _ _ _ _ (fun _ t1 => t1 = t)); auto.
      { intros ? ? ? ? ? ? -> -> ->. reflexivity. }
      intros nw tr1 t1 -> P. apply wp_call; auto. intros s0 r s1 -> [-> L].
      destruct (lstat_inode w t p) as [i|] eqn:Li.
      2: { destruct L as (m & ->). apply wp_ret; auto. }
      subst r. apply wp_call; auto. intros s0 r s1 -> [-> L2].
      destruct (match r with inl new => is_other_file (stat_of w t i) new | inr _ => false end) eqn:O.
      { simpl. splits; auto. }
      assert (WR : would_rename w o t p nw).
      { split; [exact P|]. exists i. split; auto.
        destruct (lstat_inode w t nw) as [j|]; [|auto]. subst r. apply other_file_iff in O. destruct O as [-> O]. auto. }
      assert (G : forall tr0, wp (fs_step w) alone (fun _ _ => True)
         (fun _ t1 c => match c with Rename a b => t1 = t /\ would_rename w o t a b | _ => True end)
         (if o_dry_run o' then Ret p
          else let! err := sys (Rename p nw) in
               match err with
               | Some message => let! _ := print Stderr (refusal p nw message) in Ret p
               | None => Ret nw
               end) (fun _ _ _ => True) tr0 t).
      { intros tr0. simpl. splits; auto. intros s0 r0 s1 -> _. destruct r0; simpl; auto. }
      destruct ((0 <? o_verbose o')%N || o_dry_run o')%bool.
      - apply wp_call; auto. intros s0 r0 s1 -> ->. apply G.
      - apply G. }
    apply (runs_pending _ _ _ _ _ _ _ _ _ _ _ W) in R. now destruct R.
  - intros (P & i & Li & H).
    assert (P' : proper_rename o' p new) by exact P.
    destruct (proper_component _ _ _ P') as (dir & base & LC). rewrite (parse_file_proper _ _ _ _ _ LC P').
    assert (St2 : exists r2, fs_step w t (Lstat new) r2 t /\
       match r2 with inl x => is_other_file (stat_of w t i) x | inr _ => false end = false).
    { simpl. destruct H as [->|[-> H]].
      - exists (inr []). splits; eauto.
      - exists (inl (stat_of w t i)). splits; auto. apply other_file_iff. auto. }
    destruct St2 as (r2 & St2 & O).
    destruct ((0 <? o_verbose o')%N || o_dry_run o')%bool eqn:V.
    + exists (map heard (remarks o' base) ++ [Ev (Lstat p) (inl (stat_of w t i)); Ev (Lstat new) r2; announced p new]), t. eexists.
      apply runs_told; [apply fs_prints|]. eapply runs_call; [reflexivity | simpl; rewrite Li; auto |].
      eapply runs_call; [reflexivity | exact St2 |]. rewrite O.
      eapply runs_call; [reflexivity | reflexivity |]. apply runs_here.
    + exists (map heard (remarks o' base) ++ [Ev (Lstat p) (inl (stat_of w t i)); Ev (Lstat new) r2]), t. eexists.
      apply runs_told; [apply fs_prints|]. eapply runs_call; [reflexivity | simpl; rewrite Li; auto |].
      eapply runs_call; [reflexivity | exact St2 |]. rewrite O. apply runs_here.
Qed.

Lemma announced_inj old new old' new' :
  announced old new = announced old' new' -> length old = length old' -> old = old' /\ new = new'.
Proof.
  unfold announced. intros E L.
  assert (E2 : old ++ bs " -> " ++ new ++ [Nb 10] = old' ++ bs " -> " ++ new' ++ [Nb 10]).
  { exact (f_equal (fun e => match e with Ev (Print _ t) _ => t | _ => [] end) E). }
  assert (old = old').
  { apply (f_equal (firstn (length old))) in E2. rewrite !firstn_app in E2.
    rewrite Nat.sub_diag, L, Nat.sub_diag, firstn_O, firstn_O, !app_nil_r in E2.
    rewrite <- L in E2 at 1. now rewrite !firstn_all in E2. }
  subst old'. split; auto. apply app_inv_head in E2. apply app_inv_head in E2. now apply app_inv_tail in E2.
Qed.

Lemma announce_iff w o t p new :
  (exists tr t' q, runs (fs_step w) alone (parse_file p (with_dry_run true o)) t tr t' q /\ In (announced p new) tr) <->
  would_rename w o t p new.
Proof.
  set (o' := with_dry_run true o). split.
  - intros (tr & t' & k & R & IN).
    assert (W : wp (fs_step w) alone (fun tr _ => forall b, In (announced p b) tr -> would_rename w o t p b)
       (fun _ _ _ => True)
       (parse_file p o') (fun _ _ _ => True) [] t).
    { apply (parse_file_wp _ _ _ _ _ (fun tr t1 => t1 = t /\ forall b, ~ In (announced p b) tr)); auto.
      { intros ? ? [_ N] b X. now apply N in X. }
      { intros ? ? ? ? ? ? [-> N] -> ->. split; [reflexivity|]. intros b [X|X]; [discriminate|now apply N in X]. }
      intros nw tr1 t1 [-> N] P. apply wp_call; auto. { intros b X. now apply N in X. }
      intros s0 r s1 -> [-> L].
      assert (I1 : forall b, In (announced p b) (Ev (Lstat p) r :: tr1) -> would_rename w o t p b).
      { intros b [X|X]; [discriminate|now apply N in X]. }
      destruct (lstat_inode w t p) as [i|] eqn:Li.
      2: { destruct L as (m & ->). apply wp_ret; auto. }
      subst r. apply wp_call; auto. intros s0 r s1 -> [-> L2].
      assert (I2 : forall b, In (announced p b) (Ev (Lstat nw) r :: Ev (Lstat p) (inl (stat_of w t i)) :: tr1) -> would_rename w o t p b).
      { intros b [X|[X|X]]; [discriminate|discriminate|now apply N in X]. }
      destruct (match r with inl new => is_other_file (stat_of w t i) new | inr _ => false end) eqn:O.
      { simpl. splits; auto. intros s0 r0 s1 _ _. splits; auto.
        intros b [X|X]; [discriminate|]. apply I2. exact X. }
      assert (WR : would_rename w o t p nw).
      { split; [exact P|]. exists i. split; auto.
        destruct (lstat_inode w t nw) as [j|]; [|auto]. subst r. apply other_file_iff in O. destruct O as [-> O]. auto. }
      replace ((0 <? o_verbose o')%N || o_dry_run o')%bool with true by (simpl; now rewrite orb_true_r).
      apply wp_call; auto. intros s0 [] s1 -> ->. simpl o_dry_run. cbv iota. apply wp_ret; auto.
      intros b [X|X].
      - apply (announced_inj p nw p b) in X; [|reflexivity]. destruct X as [_ <-]. exact WR.
      - apply I2. exact X. }
    pose proof (runs_inv _ _ _ _ _ _ _ _ _ _ W R) as X. apply X. now rewrite <- in_rev.
  - intros (P & i & Li & H).
    assert (P' : proper_rename o' p new) by exact P.
    destruct (proper_component _ _ _ P') as (dir & base & LC). rewrite (parse_file_proper _ _ _ _ _ LC P').
    assert (St2 : exists r2, fs_step w t (Lstat new) r2 t /\
       match r2 with inl x => is_other_file (stat_of w t i) x | inr _ => false end = false).
    { simpl. destruct H as [->|[-> H]].
      - exists (inr []). splits; eauto.
      - exists (inl (stat_of w t i)). splits; auto. apply other_file_iff. auto. }
    destruct St2 as (r2 & St2 & O).
    exists (map heard (remarks o' base) ++ [Ev (Lstat p) (inl (stat_of w t i)); Ev (Lstat new) r2; announced p new]), t, (Ret p).
    split; [|apply in_app_iff; simpl; auto].
    apply runs_told; [apply fs_prints|]. eapply runs_call; [reflexivity | simpl; rewrite Li; auto |].
    eapply runs_call; [reflexivity | exact St2 |]. rewrite O.
    replace ((0 <? o_verbose o')%N || o_dry_run o')%bool with true by (simpl; now rewrite orb_true_r).
    eapply runs_call; [reflexivity | reflexivity |]. apply runs_here.
Qed.

(** ** The returned path (C24) *)

Lemma lookup_searchable w t d n i : lookup w t d n = Some i -> (is_dir w d && searchable w d)%bool = true.
Proof. unfold lookup. now destruct (is_dir w d && searchable w d)%bool. Qed.

(** The directory part of a path is the directory of the path. *)
Lemma lstat_dir_part w t p dir base d n via :
  last_component p dir base -> base <> [] -> dir <> [] -> usable w dir = true ->
  place w t p = Some (d, n, via) -> is_dir w d = true -> lstat_inode w t dir = Some d.
Proof.
  intros L B D U P K. rewrite (place_last w t p dir base L B) in P.
  destruct (usable w p); [|discriminate].
  destruct (walk w t (max_symlinks w) (start_of w p) (components dir)) as [[e v]|] eqn:W; [|discriminate].
  assert (e = d) by congruence. subst e.
  assert (S : start_of w dir = start_of w p).
  { destruct L as (-> & _). unfold start_of, absolute. destruct dir; [contradiction|]. reflexivity. }
  unfold lstat_inode. rewrite U, S, W, K.
  replace (nonempty dir) with true by (now destruct dir).
  replace (trailing_slash dir) with true; [reflexivity|].
  destruct L as (_ & _ & [->|(x & ->)]); [contradiction|].
  unfold trailing_slash. rewrite rev_app_distr. reflexivity.
Qed.

(** A name that cleans to nothing is not renamed. *)
Lemma empty_not_renamed w o t p dir base t' :
  wf_tree w t -> last_component p dir base -> base <> [] -> would_rename w o t p dir -> ~ rename_ok w t p dir t'.
Proof.
  intros WF L B (_ & i & LI & F) R.
  destruct R as (d1 & n1 & v1 & d2 & n2 & v2 & i' & P1 & P2 & D1 & D2 & D3 & D4 & Lk & S2 & T & Dev & M).
  rewrite (lstat_last w t p dir base L B), P1 in LI.
  destruct dir as [|c dir].
  { unfold place in P2. simpl in P2. destruct (usable w []); discriminate. }
  assert (U : usable w (c :: dir) = true).
  { unfold place in P2. destruct (usable w (c :: dir)); [reflexivity|discriminate]. }
  pose proof (lookup_searchable _ _ _ _ _ Lk) as Se. apply andb_true_iff in Se. destruct Se as [K _].
  assert (LD : lstat_inode w t (c :: dir) = Some d1).
  { eapply lstat_dir_part; eauto. discriminate. }
  assert (E : d1 = i) by (destruct F as [F|[F _]]; congruence).
  assert (E2 : i' = i) by congruence.
  rewrite (lookup_plain _ _ _ _ D1 D2) in Lk. destruct (is_dir w d1 && searchable w d1)%bool; [|discriminate].
  destruct (entry_in _ _ _ _ _ Lk) as (l & Il & Al & Tl). apply answers_iff in Al. destruct Al as [Al _].
  destruct WF as (_ & _ & _ & NS). apply (NS l Il). congruence.
Qed.

Lemma renamed_names w o t p new t' i :
  wf_tree w t -> would_rename w o t p new ->
  (forall dir base clean, last_component p dir base -> new = dir ++ clean -> ~ In "/"%byte clean) ->
  not_through_itself w t p ->
  rename_ok w t p new t' -> lstat_inode w t p = Some i -> lstat_inode w t' new = Some i.
Proof.
  intros WF WR PN NT R LI. destruct (would_free _ _ _ _ _ WR) as [(dir & base & clean & L & EN & B & _ & _ & _ & _) F].
  pose proof (PN dir base clean L EN) as C2.
  assert (C1 : clean <> []).
  { intros ->. rewrite app_nil_r in EN. subst new. exact (empty_not_renamed _ _ _ _ _ _ _ WF L B WR R). }
  assert (L2 : last_component new dir clean).
  { destruct L as (_ & _ & D). split; [assumption|split; assumption]. }
  destruct R as (d1 & n1 & v1 & d2 & n2 & v2 & i' & P1 & P2 & D1 & D2 & D3 & D4 & Lk & S2 & T & Dev & M).
  rewrite (lstat_last w t p dir base L B), P1 in LI.
  assert (i' = i) by congruence. subst i'.
  pose proof (place_last w t p dir base L B) as Q1. rewrite P1 in Q1.
  pose proof (place_last w t new dir clean L2 C1) as Q2. rewrite P2 in Q2.
  rewrite (start_agrees w new p dir clean base L2 L) in Q2.
  destruct (usable w p) eqn:U1; [|discriminate]. destruct (usable w new) eqn:U2; [|discriminate].
  destruct (walk w t (max_symlinks w) (start_of w p) (components dir)) as [[d v]|] eqn:W; [|discriminate].
  assert (E1 : d1 = d /\ n1 = base /\ v1 = v) by (injection Q1; auto).
  assert (E2 : d2 = d /\ n2 = clean /\ v2 = v) by (injection Q2; auto).
  destruct E1 as (-> & -> & ->), E2 as (-> & -> & ->). clear Q1 Q2.
  (* what lstat of the new name sees in a tree where the directory is found as before *)
  assert (Fin : forall t'', (forall x c j, In (x, c) v -> lookup w t x c = Some j -> lookup w t'' x c = Some j) ->
     lstat_inode w t'' new = lookup w t'' d clean).
  { intros t'' H. rewrite (lstat_last w t'' new dir clean L2 C1), (place_last w t'' new dir clean L2 C1), U2.
    rewrite (start_agrees w new p dir clean base L2 L).
    rewrite (walk_stable w t t'' _ _ _ _ _ W H). reflexivity. }
  assert (Free : forall j, lookup w t d clean = Some j -> j = i).
  { intros j Lj. assert (X : lstat_inode w t new = Some j) by (rewrite Fin; auto).
    destruct F as (x & F1 & F2). rewrite (lstat_last w t p dir base L B), P1 in F1.
    assert (x = i) by congruence. destruct F2; congruence. }
  assert (Ent : entry w t d base = Some i).
  { rewrite (lookup_plain w t d base D1 D2) in Lk. now destruct (is_dir w d && searchable w d)%bool. }
  (* the moved entry *)
  assert (Moved : (forall l, In l (links t) -> answers w d clean l = true -> answers w d base l = true) ->
    lstat_inode w (move w t d base d clean i) new = Some i).
  { intros H. rewrite Fin.
    - rewrite (lookup_plain _ _ _ _ D3 D4), S2. now apply entry_moved.
    - intros x c j Ix Lx. unfold lookup in *. destruct (is_dir w x && searchable w x)%bool; [|discriminate].
      destruct (dot_name c); [assumption|]. destruct (dotdot_name c); [rewrite (move_parent w t d base clean i x WF Ent); assumption|].
      destruct (inode_eqb x d && str_eqb (fold_name w d c) (fold_name w d clean))%bool eqn:Cl.
      + apply andb_true_iff in Cl. rewrite inode_eqb_eq, str_eqb_eq in Cl. destruct Cl as [-> Cl].
        exfalso. apply (NT d base v P1 d c Ix). split; auto.
        (* the component on the way is answered by the moved entry itself *)
        destruct (entry_in _ _ _ _ _ Lx) as (l & Il & Al & _).
        assert (Ac : answers w d clean l = true) by (now rewrite <- (answers_ext w d c clean l Cl)).
        pose proof (H l Il Ac) as Ab. apply answers_iff in Al, Ab. destruct Al, Ab. congruence.
      + rewrite entry_other; auto.
        * intros [-> X]. apply (NT d base v P1 d c Ix). auto.
        * intros [-> X]. rewrite inode_eqb_refl, X in Cl. rewrite (proj2 (str_eqb_eq _ _) eq_refl) in Cl. discriminate. }
  destruct (lookup w t d clean) as [j|] eqn:Lj.
  - rewrite (Free j eq_refl), inode_eqb_refl in M. rewrite inode_eqb_refl in M. simpl in M.
    destruct (str_eqb (fold_name w d base) (fold_name w d clean)) eqn:Fo.
    + subst t'. apply str_eqb_eq in Fo. apply Moved. intros l _ A. now rewrite (answers_ext w d base clean l Fo).
    + subst t'. rewrite Fin; auto. rewrite Lj. f_equal. auto.
  - destruct M as [_ ->]. apply Moved. intros l Il A.
    rewrite (lookup_plain _ _ _ _ D3 D4), S2 in Lj. rewrite (entry_none _ _ _ _ _ Lj Il) in A. discriminate.
Qed.

Lemma returned_path w o t p tr t' q i :
  wf_tree w t ->
  (forall dir base clean, last_component p dir base ->
     sequence_run_filters (o_platform o) (o_sequence_to_use o) (Some base) = Ok (Some clean) -> ~ In "/"%byte clean) ->
  not_through_itself w t p ->
  lstat_inode w t p = Some i ->
  runs (fs_step w) alone (parse_file p o) t tr t' (Ret q) ->
  lstat_inode w t' q = Some i /\ (q <> p <-> In (Ev (Rename p q) None) tr).
Proof.
  intros WF PN NT LI R.
  assert (W : wp (fs_step w) alone (fun _ _ => True) (fun _ _ _ => True) (parse_file p o)
     (fun q tr t1 => lstat_inode w t1 q = Some i /\ (q <> p <-> In (Ev (Rename p q) None) tr)) [] t).
  { apply (parse_file_wp _ _ _ _ _ (fun tr t1 => t1 = t /\ forall x, ~ In (Ev (Rename p x) None) tr)); auto.
    { intros ? ? ? ? ? ? [-> N] -> ->. split; [reflexivity|]. intros x [X|X]; [discriminate|now apply N in X]. }
    { intros ? ? [-> N]. split; auto. split; [tauto|]. intros X. now apply N in X. }
    intros nw tr1 t1 [-> N] P. apply wp_call; auto. intros s0 r s1 -> [-> L].
    rewrite LI in L. subst r. apply wp_call; auto. intros s0 r s1 -> [-> L2].
    destruct (match r with inl new => is_other_file (stat_of w t i) new | inr _ => false end) eqn:O.
    { apply wp_call; auto. intros s0 r0 s1 -> ->. apply wp_ret; auto. split; auto.
      simpl. split; [tauto|]. intros [X|[X|[X|X]]]; [discriminate..|now apply N in X]. }
    assert (F : would_rename w o t p nw).
    { split; auto. exists i. split; auto. destruct (lstat_inode w t nw) as [j|]; [|auto]. subst r.
      apply other_file_iff in O. destruct O as [-> O]. auto. }
    assert (NP : nw <> p).
    { intros ->. destruct P as (dir & base & clean & (E & _) & E2 & _ & _ & _ & N2 & _).
      rewrite E in E2. apply app_inv_head in E2. congruence. }
    assert (G : forall tr0, (forall x, ~ In (Ev (Rename p x) None) tr0) -> wp (fs_step w) alone (fun _ _ => True)
         (fun _ _ _ => True)
         (if o_dry_run o then Ret p
          else let! err := sys (Rename p nw) in
               match err with
               | Some message => let! _ := print Stderr (refusal p nw message) in Ret p
               | None => Ret nw
               end)
         (fun q tr t1 => lstat_inode w t1 q = Some i /\ (q <> p <-> In (Ev (Rename p q) None) tr)) tr0 t).
    { intros tr0 H0. destruct (o_dry_run o).
      { apply wp_ret; auto. split; auto. split; [tauto|]. intros X. now apply H0 in X. }
      apply wp_call; auto. intros s0 r0 s1 -> St. destruct r0 as [m|].
      - simpl in St. subst s1. apply wp_call; auto. intros s0 r0 s1 -> ->. apply wp_ret; auto. split; auto.
        split; [tauto|]. intros [X|[X|X]]; [discriminate| |now apply H0 in X].
        apply (f_equal (fun e => match e with Ev (Rename _ _) (Some _) => true | _ => false end)) in X. discriminate.
      - apply wp_ret; auto. split.
        + eapply renamed_names; eauto. intros dir base clean Lc E.
          destruct P as (dir' & base' & clean' & Lc' & E' & B & _ & _ & _ & Run).
          destruct (last_component_fun _ _ _ _ _ Lc Lc') as [-> ->].
          rewrite E in E'. apply app_inv_head in E'. subst clean'. eapply PN; eauto.
        + split; auto. intros _. now left. }
    destruct ((0 <? o_verbose o)%N || o_dry_run o)%bool.
    - apply wp_call; auto. intros s0 r0 s1 -> ->. apply G. intros x [X|[X|[X|X]]]; [discriminate..|now apply N in X].
    - apply G. intros x [X|[X|X]]; [discriminate..|now apply N in X]. }
  apply (runs_post _ _ _ _ _ _ _ _ _ _ W) in R. now rewrite <- in_rev in R.
Qed.

(** ** Ignored names during a walk (C26) *)

Lemma checked_hidden h n tr : hidden n -> checked (Ev (Readdir h) (Some n) :: tr) = checked tr.
Proof. intros (r & ->). reflexivity. Qed.

Lemma checked_shown h n tr : ~ hidden n -> checked (Ev (Readdir h) (Some n) :: tr) = n :: checked tr.
Proof.
  intros H. destruct n as [|c r]; [reflexivity|]. simpl.
  destruct c; try reflexivity. exfalso. apply H. now exists r.
Qed.

Section ignored.
  Context {S : Type}.
  Variable step : S -> forall c, answer c -> S -> Prop.
  Variable interference : S -> S -> Prop.
  Hypothesis names : honest_names step.
  Variable o : options_t.
  Variable its : list str.

  Notation I := (fun (_ : list event) (_ : S) => True).

  (** Where the list's cursor can be. *)
  Definition cursor_ok (ign : option filelist) (tr : list event) : Prop :=
    ogood ign /\ items ign = its /\
    (cursor ign = 0%nat \/ exists m r, checked tr = m :: r /\ In m its).

  (** A rename asked for while walking a directory. *)
  Definition on_list (tr : list event) (old : str) : Prop :=
    exists top n rest, old = top ++ bs "/" ++ n /\ checked tr = n :: rest /\
      (In n its -> exists m r, rest = m :: r /\ In m its).

  Variable Arg : str -> Prop.

  Definition ignoring (tr : list event) (s : S) (c : call) : Prop :=
    match c with
    | Rename old new => Arg old \/ on_list tr old
    | _ => True
    end.

  Notation wp := (wp step interference I ignoring).

  Lemma parse_file_checked p tr s :
    Arg p \/ on_list tr p -> wp (parse_file p o) (fun _ tr' _ => checked tr' = checked tr) tr s.
  Proof.
    intros H. apply (parse_file_wp _ _ _ _ _ (fun tr' _ => checked tr' = checked tr)); auto.
    { intros; exact Logic.I. }
    clear s. intros new tr0 s E0 _.
    wp_step. intros s0 r s1 _ _. destruct r as [old|m]; [|apply wp_ret; auto].
    wp_step. intros s2 r s3 _ _.
    destruct (match r with inl new => is_other_file old new | inr _ => false end).
    { wp_step. intros s4 r0 s5 _ _. apply wp_ret; auto. }
    assert (G : forall tr' s, checked tr' = checked tr -> wp
      (if o_dry_run o then Ret p
       else let! err := sys (Rename p new) in
            match err with
            | Some message => let! _ := print Stderr (refusal p new message) in Ret p
            | None => Ret new
            end) (fun _ tr' _ => checked tr' = checked tr) tr' s).
    { intros tr' s' E. destruct (o_dry_run o); [apply wp_ret; auto|].
      apply wp_call; [exact Logic.I| |].
      { simpl. destruct H as [H|(top & n & rest & H)]; [auto|]. right. exists top, n, rest. now rewrite E. }
      intros s4 r0 s5 _ _. destruct r0 as [m|].
      - wp_step. intros s6 r0 s7 _ _. apply wp_ret; auto.
      - apply wp_ret; auto. }
    destruct ((0 <? o_verbose o)%N || o_dry_run o)%bool.
    - wp_step. intros s4 r0 s5 _ _. apply G. auto.
    - apply G. auto.
  Qed.

  Lemma cursor_checked ign tr tr' : checked tr' = checked tr -> cursor_ok ign tr -> cursor_ok ign tr'.
  Proof. unfold cursor_ok. now intros ->. Qed.

  Lemma walk_ignoring fuel :
    (forall filename ign tr s, cursor_ok ign tr ->
       wp (parse_dir fuel o filename ign) (fun ign' tr' _ => cursor_ok ign' tr') tr s) /\
    (forall filename h st ign tr s, cursor_ok ign tr ->
       wp (dir_loop fuel o filename h st ign) (fun ign' tr' _ => cursor_ok ign' tr') tr s).
  Proof.
    induction fuel as [|fuel [IHd IHl]].
    - split; intros; simpl; auto.
    - split.
      + intros filename ign tr s C. cbn [parse_dir]. wp_step.
        intros s0 r s1 _ _. destruct r as [st|m]; [|apply wp_ret; auto].
        destruct (negb (isdir st)); [apply wp_ret; auto|].
        wp_step. intros s2 r s3 _ _. destruct r as [h|em m].
        * apply wp_bind. eapply wp_mono; [|apply IHl; exact C]. cbv beta.
          intros ign' tr3 s4 _ H3. wp_step. intros s5 r s6 _ _. apply wp_ret; auto.
        * wp_step. intros s4 r s5 _ _. destruct em; simpl; auto.
      + intros filename h st ign tr s C. cbn [dir_loop]. wp_step.
        intros s0 r s1 _ St. destruct r as [n|]; [|apply wp_ret; auto].
        apply names in St. rename St into Nm.
        apply wp_bind, wp_lift; auto. intros [ig ign1] Eig.
        destruct C as (G & It & Cu).
        destruct (ignore_file_result _ _ _ _ G Eig) as (G1 & It1 & Tr & Fa).
        rewrite It in *.
        destruct (hidden_dec n) as [Hn|Hn].
        { rewrite (ignore_file_hidden _ _ Hn) in Eig. injection Eig as <- <-.
          apply IHl. apply cursor_checked with tr; [now apply checked_hidden|]. split; auto. }
        destruct ig.
        { apply IHl. split; [assumption|]. split; [assumption|]. right.
          exists n, (checked tr). split; [now apply checked_shown|].
          destruct (proj1 Tr eq_refl) as [X|X]; [contradiction|].
          rewrite <- (firstn_skipn (cursor ign) its). apply in_app_iff. auto. }
        wp_step. intros s2 r s3 _ _. cbv zeta.
        rewrite (entry_path_name _ _ Nm).
        set (p := filename ++ bs "/" ++ n) in *.
        set (e := Ev (Lstat p) r).
        set (tr1 := Ev (Readdir h) (Some n) :: tr).
        assert (C1 : cursor_ok ign1 tr1) by (split; auto).
        assert (L1 : on_list (e :: tr1) p).
        { exists filename, n, (checked tr). splits; [reflexivity | exact (checked_shown h n tr Hn) |].
          intros Hin. destruct Cu as [Z|(m & r0 & E & Hm)]; [|eauto].
          exfalso. rewrite Z in Tr. simpl in Tr. assert (false = true) by (apply Tr; auto). discriminate. }
        apply wp_bind.
        eapply wp_mono with (Q := fun ign' tr' _ => cursor_ok ign' tr').
        { intros ign2 tr3 s4 _ H3. now apply IHl. }
        destruct (isdir (match r with inl x => x | inr _ => st end)).
        * apply wp_bind. eapply wp_mono; [|apply parse_file_checked; auto]. cbv beta.
          intros work tr3 s4 _ E3.
          assert (C3 : cursor_ok ign1 tr3) by (eapply cursor_checked; [exact E3|]; exact C1).
          destruct (o_recurse o); [now apply IHd|apply wp_ret; auto].
        * destruct (isreg _ || o_special o)%bool; [|apply wp_ret; auto].
          apply wp_bind. eapply wp_mono; [|apply parse_file_checked; auto]. cbv beta.
          intros work tr3 s4 _ E3. apply wp_ret; auto. eapply cursor_checked; [exact E3|]; exact C1.
  Qed.

  Lemma argument_ignoring fuel f ign tr s :
    Arg f -> cursor_ok ign tr ->
    wp (process_argument fuel o f ign) (fun ign' tr' _ => cursor_ok ign' tr') tr s.
  Proof.
    intros Hf. unfold process_argument.
    assert (G : forall tr s, cursor_ok ign tr -> wp
      (let! st := sys (Lstat f) in
       match st with
       | inr message => let! _ := print Stderr (f ++ bs ": " ++ message ++ [Nb 10]) in Ret ign
       | inl st =>
         if isdir st then let! work := parse_file f o in parse_dir fuel o work ign
         else if (isreg st || o_special o)%bool then let! _ := parse_file f o in Ret ign
         else Ret ign
       end) (fun ign' tr' _ => cursor_ok ign' tr') tr s).
    { clear tr s. intros tr s C. wp_step. intros s0 r s1 _ _.
      destruct r as [st|m].
      - destruct (isdir st).
        + apply wp_bind. eapply wp_mono; [|apply parse_file_checked; auto]. cbv beta.
          intros work tr2 s2 _ E. apply walk_ignoring. eapply cursor_checked; [exact E|]; exact C.
        + destruct (isreg st || o_special o)%bool; [|apply wp_ret; auto].
          apply wp_bind. eapply wp_mono; [|apply parse_file_checked; auto]. cbv beta.
          intros work tr2 s2 _ E. apply wp_ret; auto. eapply cursor_checked; [exact E|]; exact C.
      - wp_step. intros s2 r s3 _ _. apply wp_ret; auto. }
    intros C. destruct (0 <? o_verbose o)%N; [|now apply G].
    wp_step. intros s0 r s1 _ _. apply G. exact C.
  Qed.

  Lemma arguments_ignoring fuel fs : forall ign tr s,
    (forall f, In f fs -> Arg f) -> cursor_ok ign tr ->
    wp (process_arguments fuel o fs ign) (fun ign' tr' _ => cursor_ok ign' tr') tr s.
  Proof.
    induction fs as [|f fs IH]; intros ign tr s A C; cbn [process_arguments].
    - apply wp_ret; auto.
    - apply wp_bind. eapply wp_mono; [|apply argument_ignoring; [apply A; now left|exact C]]. cbv beta.
      intros ign' tr1 s1 _ C1. apply IH; auto. intros x Hx. apply A. now right.
  Qed.
End ignored.

Lemma run_ignoring {S} (step : S -> forall c, answer c -> S -> Prop) (interference : S -> S -> Prop)
    fuel o files ign s tr s' old new k :
  honest_names step -> ogood ign -> cursor ign = 0%nat ->
  runs step interference (process_arguments fuel o files ign) s tr s' (Call (Rename old new) k) ->
  In old files \/
  exists top n rest, old = top ++ bs "/" ++ n /\ checked (rev tr) = n :: rest /\
    (In n (items ign) -> exists m r, rest = m :: r /\ In m (items ign)).
Proof.
  intros H G C R.
  assert (W : wp step interference (fun _ _ => True) (ignoring (items ign) (fun f => In f files))
    (process_arguments fuel o files ign) (fun ign' tr' _ => cursor_ok (items ign) ign' tr') [] s).
  { apply arguments_ignoring; auto. split; auto. }
  exact (runs_pending _ _ _ _ _ _ _ _ _ _ _ W R).
Qed.

(** ** Names that clean to nothing (C51) *)

Lemma empty_name_stays w o t p dir base tr t' p' :
  wf_tree w t -> last_component p dir base -> base <> [] ->
  sequence_run_filters (o_platform o) (o_sequence_to_use o) (Some base) = Ok (Some []) ->
  runs (fs_step w) alone (parse_file p o) t tr t' p' ->
  t' = t /\ forall q, p' = Ret q -> q = p.
Proof.
  intros WF L B E R.
  assert (W : wp (fs_step w) alone (fun _ t1 => t1 = t) (fun _ _ _ => True) (parse_file p o) (fun q _ t1 => q = p) [] t).
  { apply parse_file_fs; auto. intros new tr0 WR D _. split; auto. split; auto.
    intros t1 Rn. exfalso.
    assert (new = dir).
    { destruct WR as ((d & b & c & L2 & -> & _ & _ & _ & _ & E2) & _).
      destruct (last_component_fun _ _ _ _ _ L L2) as [<- <-]. rewrite E in E2. injection E2 as <-. now rewrite app_nil_r. }
    subst new. exact (empty_not_renamed _ _ _ _ _ _ _ WF L B WR Rn). }
  split; [exact (runs_inv _ _ _ _ _ _ _ _ _ _ W R)|].
  intros q ->. exact (runs_post _ _ _ _ _ _ _ _ _ _ W R).
Qed.
