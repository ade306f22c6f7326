(** * One file, in a file system with directory streams *)

From Verif Require Import Base BaseFacts CleanSpec Filter Filelist Prog ProgFacts File FS FSProofs FileSpec FileProofs FileProofs2 RunSpec RunProofs TidySpec TidyProofs.

Local Open Scope nat_scope.

Fixpoint steps (w : world) (s : state) (tr : list event) (s' : state) : Prop :=
  match tr with
  | [] => s' = s
  | Ev c r :: tr => exists s1, steady_step w s c r s1 /\ steps w s1 tr s'
  end.

Lemma runs_steps {A} w (p : prog A) : forall s tr s' p', runs (steady_step w) alone p s tr s' p' -> steps w s tr s'.
Proof.
  induction p as [a|why|c k IH]; intros s tr s' p' R; cbn [runs] in R.
  - destruct R as [(-> & -> & _)|[]]. reflexivity.
  - destruct R as [(-> & -> & _)|[]]. reflexivity.
  - destruct R as [(-> & -> & _)|(s0 & r & s1 & tr' & I & St & -> & R)]; [reflexivity|].
    unfold alone in I. subst s0. cbn [steps]. exists s1. split; auto. eapply IH; eauto.
Qed.

Lemma steps_app w t1 : forall s t2 s', steps w s (t1 ++ t2) s' <-> exists s1, steps w s t1 s1 /\ steps w s1 t2 s'.
Proof.
  induction t1 as [|[c r] t1 IH]; intros s t2 s'; cbn [app steps].
  - split; [intros H; now exists s|intros (s1 & -> & H); auto].
  - split.
    + intros (s1 & St & H). apply IH in H. destruct H as (s2 & H1 & H2). exists s2. split; auto. now exists s1.
    + intros (s2 & (s1 & St & H1) & H2). exists s1. split; auto. apply IH. now exists s2.
Qed.

Definition same (s s' : state) : Prop := tree_of s' = tree_of s /\ unchanged s s'.

Lemma same_refl s : same s s.
Proof. split; [reflexivity|]. intros h. reflexivity. Qed.

Lemma same_trans a b c : same a b -> same b c -> same a c.
Proof. intros [A1 A2] [B1 B2]. split; [congruence|]. intros h. now rewrite B2. Qed.

Lemma lstat_step w s p r s' : steady_step w s (Lstat p) r s' ->
  same s s' /\ match lstat_inode w (tree_of s) p with
               | Some i => r = inl (stat_of w (tree_of s) i)
               | None => exists m, r = inr m
               end.
Proof. intros [[T L] U]. split; auto. now split. Qed.

Lemma print_step w s out text r s' : steady_step w s (Print out text) r s' -> same s s'.
Proof. intros [T U]. now split. Qed.

(** An entry is found under its name. *)
Lemma found w t p dir b d n i via :
  wf_tree w t -> last_component p dir b -> b <> [] -> b <> bs "." -> b <> bs ".." -> usable w p = true ->
  walk w t (max_symlinks w) (start_of w p) (components dir) = Some (d, via) -> is_dir w d = true -> searchable w d = true ->
  In (mkLink d n i) (links t) -> fold_name w d n = fold_name w d b ->
  place w t p = Some (d, b, via) /\ lookup w t d b = Some i /\ lstat_inode w t p = Some i.
Proof.
  intros W L B D1 D2 U Wa K Se I F.
  assert (P : place w t p = Some (d, b, via)) by (now rewrite (place_last w t p dir b L B), U, Wa).
  assert (Lk : lookup w t d b = Some i).
  { rewrite lookup_plain, K, Se; [|now apply not_true_iff_false; rewrite dot_name_iff|now apply not_true_iff_false; rewrite dotdot_name_iff].
    cbn [andb]. apply entry_iff; [apply W|]. exists (mkLink d n i). splits; auto. unfold key. cbn. now rewrite F. }
  splits; auto. now rewrite (lstat_last w t p dir b L B), P.
Qed.

Lemma in_the_way_iff w t i j : in_the_way (stat_of w t i) (stat_of w t j) <-> j <> i \/ (1 < st_nlink (stat_of w t i))%N.
Proof.
  unfold in_the_way. cbn [stat_of st_dev st_ino]. split.
  - intros [H|[H|H]]; auto; left; intros ->; now apply H.
  - intros [H|H]; auto. destruct (N.eq_dec (fst j) (fst i)) as [E1|E1]; auto.
    destruct (N.eq_dec (snd j) (snd i)) as [E2|E2]; auto. exfalso. apply H. destruct i, j; cbn in *. congruence.
Qed.

(** A successful rename to a free name gives the entry that name. *)
Lemma rename_retitles w o t p dir n d m i via c t' :
  good w t -> last_component p dir n -> n <> [] -> n <> bs "." -> n <> bs ".." -> ~ In "/"%byte c ->
  walk w t (max_symlinks w) (start_of w p) (components dir) = Some (d, via) ->
  In (mkLink d m i) (links t) -> fold_name w d m = fold_name w d n ->
  would_rename w o t p (dir ++ c) -> rename_ok w t p (dir ++ c) t' ->
  c <> [] /\ c <> bs "." /\ c <> bs ".." /\ retitled w t (mkLink d m i) (mkLink d c i) t' /\ wf_tree w t'.
Proof.
  intros G L N D1 D2 Sl Wa I F WR R.
  assert (C : c <> []).
  { intros ->. rewrite app_nil_r in *. exact (empty_not_renamed w o t p dir n t' (proj1 G) L N WR R). }
  assert (L2 : last_component (dir ++ c) dir c) by (destruct L as (_ & _ & D); split; [reflexivity|now split]).
  destruct R as (d1 & n1 & v1 & d2 & n2 & v2 & i' & P1 & P2 & E1 & E2 & E3 & E4 & Lk & S2 & T & Dev & M).
  pose proof (place_last w t p dir n L N) as Q1. rewrite P1, Wa in Q1.
  pose proof (place_last w t _ dir c L2 C) as Q2. rewrite P2, (start_agrees w _ p dir c n L2 L), Wa in Q2.
  destruct (usable w p) eqn:U1; [|discriminate]. destruct (usable w (dir ++ c)) eqn:U2; [|discriminate].
  injection Q1 as -> -> ->. injection Q2 as -> -> ->.
  apply andb_true_iff in S2. destruct S2 as [K Se].
  destruct (found w t p dir n d m i via) as (_ & Lk' & Ls); auto; try apply G.
  assert (i' = i) by congruence. subst i'.
  split; auto.
  split. { intros ->. discriminate. } split. { intros ->. discriminate. }
  assert (Ls2 : lstat_inode w t (dir ++ c) = lookup w t d c) by (rewrite (lstat_last w t _ dir c L2 C), P2; reflexivity).
  assert (Lp : lookup w t d c = entry w t d c) by (rewrite lookup_plain, K, Se; auto).
  destruct WR as (_ & i2 & LI & Fr). assert (i2 = i) by congruence. subst i2. rewrite Ls2 in Fr.
  assert (Mv : (forall x, In x (links t) -> answers w d c x = true -> x = mkLink d m i) -> t' = move w t d n d c i ->
     retitled w t (mkLink d m i) (mkLink d c i) t' /\ wf_tree w t').
  { intros H ->. now apply move_retitles. }
  destruct (lookup w t d c) as [j|] eqn:Lc.
  - assert (j = i) by (destruct Fr as [Fr|[Fr _]]; congruence). subst j.
    rewrite inode_eqb_refl in M. rewrite inode_eqb_refl in M. cbn [andb] in M.
    destruct Fr as [Fr|[_ Fr]]; [discriminate|].
    symmetry in Lp. apply entry_iff in Lp; [|now apply good_keys]. destruct Lp as (y & Iy & Ky & Ty).
    assert (Y : y = mkLink d m i).
    { destruct (is_dir w i) eqn:Ki.
      - apply (good_dir_once w t); auto.
      - destruct (link_dec y (mkLink d m i)) as [Y|Y]; auto. exfalso.
        unfold stat_of in Fr. cbn [st_nlink] in Fr. unfold is_dir in Ki.
        assert (R2 : 2 <= refs t i).
        { unfold refs. destruct (in_split _ _ I) as (a & b & E). rewrite E in Iy |- *. rewrite filter_app, app_length. cbn [filter].
          cbn [l_target]. rewrite inode_eqb_refl. cbn [length].
          assert (Iy' : In y (a ++ b)). { apply in_app_or in Iy. apply in_or_app. destruct Iy as [Iy|[Iy|Iy]]; auto. now symmetry in Iy. }
          assert (X : In y (filter (fun l => inode_eqb (l_target l) i) a ++ filter (fun l => inode_eqb (l_target l) i) b)).
          { rewrite <- filter_app. apply filter_In. split; auto. now apply inode_eqb_eq. }
          destruct (filter (fun l => inode_eqb (l_target l) i) a), (filter (fun l => inode_eqb (l_target l) i) b); cbn in *; try lia; contradiction. }
        destruct (kind_of w i); try discriminate; lia. }
    subst y. unfold key in Ky. cbn in Ky. injection Ky as Ky.
    rewrite <- F, Ky in M. rewrite (proj2 (str_eqb_eq _ _) eq_refl) in M.
    apply Mv; auto. intros x Ix A. apply answers_key in A. apply (good_same w t); auto. rewrite A. unfold key. cbn. now rewrite Ky.
  - destruct M as [_ M]. apply Mv; auto. intros x Ix A. symmetry in Lp. rewrite (entry_none _ _ _ _ _ Lp Ix) in A. discriminate.
Qed.

(** The names that are due stay due as long as they are there. *)
Definition streams_kept (s s' : state) : Prop :=
  forall h x due, stream_of s h = Some (x, due) ->
    exists due', stream_of s' h = Some (x, due') /\ forall y, In y due -> In y (names_in (tree_of s') x) -> In y due'.

Lemma same_streams s s' : unchanged s s' -> streams_kept s s'.
Proof. intros U h x due E. exists due. rewrite U. auto. Qed.

Lemma streams_trans s a b : streams_kept s a -> streams_kept a b ->
  (forall x y, In y (names_in (tree_of b) x) -> In y (names_in (tree_of a) x) \/
     forall h due, stream_of s h = Some (x, due) -> ~ In y due) -> streams_kept s b.
Proof.
  intros A B H h x due E. destruct (A h x due E) as (d1 & E1 & I1). destruct (B h x d1 E1) as (d2 & E2 & I2).
  exists d2. split; auto. intros y Iy Ny. apply I2; auto. destruct (H x y Ny) as [N|N]; auto. exfalso. now apply (N h due).
Qed.

Lemma left_alone_never o p new : left_alone o p -> ~ proper_rename o p new.
Proof.
  intros (dir & base & L & H) (d & b & c & L' & _ & B & D1 & D2 & N & E).
  destruct (last_component_fun _ _ _ _ _ L L') as [-> ->]. destruct H as [H|[H|H]]; try contradiction.
  rewrite E in H. injection H as H. contradiction.
Qed.

(** The walk to a directory does not notice the new name. *)
Lemma retitled_walk w t t' d m i c n via k x0 comps :
  good w t -> wf_tree w t' -> retitled w t (mkLink d m i) (mkLink d c i) t' -> fold_name w d m = fold_name w d n ->
  (forall x y, In (x, y) via -> y = bs "." \/ y = bs ".." \/ ~ (x = d /\ fold_name w d y = fold_name w d n)) ->
  walk w t k x0 comps = Some (d, via) -> walk w t' k x0 comps = Some (d, via).
Proof.
  intros G W Re F NT Wa. eapply walk_stable; [exact Wa|]. intros x y j Ix Lk.
  destruct (NT x y Ix) as [->|[->|N]].
  - unfold lookup in *. cbn in *. assumption.
  - destruct Re as (_ & _ & _ & _ & Pa & _). unfold lookup in *. cbn in *. now rewrite Pa.
  - destruct (inode_eqb x d) eqn:Xd.
    2:{ apply inode_eqb_neq in Xd. rewrite (retitled_lookup w t _ _ t' x y G W Re); auto; cbn; intros; contradiction. }
    apply inode_eqb_eq in Xd. subst x.
    unfold lookup in *. destruct (is_dir w d && searchable w d)%bool; [|discriminate].
    destruct (dot_name y); auto. destruct Re as (_ & _ & _ & Li & Pa & _). destruct (dotdot_name y); [now rewrite Pa|].
    apply entry_iff in Lk; [|now apply good_keys]. destruct Lk as (z & Iz & Kz & Tz). apply entry_iff; [apply W|].
    exists z. splits; auto. apply Li. left. split; auto. intros ->. unfold key in Kz. cbn in Kz. injection Kz as Kz.
    apply N. split; auto. congruence.
Qed.

Lemma handled_lemma w o s tr s' P q dir n d m i via :
  good w (tree_of s) -> all_searchable w -> settles o -> respects_case w o -> o_dry_run o = false ->
  last_component P dir n -> file_name n -> n <> bs "." -> n <> bs ".." -> usable w P = true ->
  walk w (tree_of s) (max_symlinks w) (start_of w P) (components dir) = Some (d, via) -> is_dir w d = true ->
  In (mkLink d m i) (links (tree_of s)) -> fold_name w d m = fold_name w d n ->
  (forall x y, In (x, y) via -> y = bs "." \/ y = bs ".." \/ ~ (x = d /\ fold_name w d y = fold_name w d n)) ->
  file_handled o P tr q -> steps w s tr s' -> Forall (unhindered w) tr ->
  exists n' b,
    good w (tree_of s') /\ retitled w (tree_of s) (mkLink d m i) (mkLink d n' i) (tree_of s') /\
    streams_kept s s' /\
    (q = P \/ In (Ev (Rename P q) None) tr) /\ last_component q dir b /\ file_name b /\ b <> bs "." /\ b <> bs ".." /\
    usable w q = true /\ fold_name w d n' = fold_name w d b /\
    walk w (tree_of s') (max_symlinks w) (start_of w q) (components dir) = Some (d, via) /\
    (m = n -> at_rest w o (tree_of s') (mkLink d n' i) /\ n' = b) /\
    (forall new, ~ would_rename w o (tree_of s') q new) /\
    (forall x, In x (links (tree_of s)) -> at_rest w o (tree_of s) x -> at_rest w o (tree_of s') x).
Proof.
  intros G AS Se Rc Dry L FN D1 D2 U Wa K I F NT FD St Un.
  assert (N : n <> []) by apply FN.
  pose proof (AS d K) as Sd.
  destruct (found w (tree_of s) P dir n d m i via) as (Pl & Lk & Ls); auto; try apply G.
  set (t := tree_of s) in *.
  (* nothing has changed *)
  assert (Stay : same s s' -> (m = n -> at_rest w o t (mkLink d m i)) -> (forall new, ~ would_rename w o t P new) ->
    exists n' b,
      good w (tree_of s') /\ retitled w t (mkLink d m i) (mkLink d n' i) (tree_of s') /\
      streams_kept s s' /\
      (P = P \/ In (Ev (Rename P P) None) tr) /\ last_component P dir b /\ file_name b /\ b <> bs "." /\ b <> bs ".." /\
      usable w P = true /\ fold_name w d n' = fold_name w d b /\
      walk w (tree_of s') (max_symlinks w) (start_of w P) (components dir) = Some (d, via) /\
      (m = n -> at_rest w o (tree_of s') (mkLink d n' i) /\ n' = b) /\
      (forall new, ~ would_rename w o (tree_of s') P new) /\
      (forall x, In x (links t) -> at_rest w o t x -> at_rest w o (tree_of s') x)).
  { intros [T V] A WR. fold t in T. rewrite T. exists m, n. splits; auto; try (now apply retitled_same).
    now apply same_streams. }
  inversion FD as [LA|new ms PR|new a b PR IW|new a r PR WF Dr|new a r PR WF Dr|new a r ms PR WF Dr]; subst.
  - (* clean *)
    cbn [steps] in St. subst s'. apply Stay; [apply same_refl| |].
    + intros ->. destruct LA as (dir' & base & L' & H). destruct (last_component_fun _ _ _ _ _ L L') as [<- <-].
      destruct H as [H|[H|H]]; try contradiction. exists n. split; auto.
    + intros new [PR _]. now apply (left_alone_never o q new).
  - (* gone *)
    cbn [steps] in St. destruct St as (s1 & S1 & _). apply lstat_step in S1. destruct S1 as [_ S1]. fold t in S1.
    rewrite Ls in S1. discriminate.
  - (* refused *)
    cbn [steps] in St. destruct St as (s1 & S1 & s2 & S2 & s3 & S3 & ->). apply lstat_step in S1, S2. apply print_step in S3.
    destruct S1 as [V1 S1], S2 as [V2 S2]. fold t in S1. rewrite (proj1 V1) in S2. fold t in S2. rewrite Ls in S1. injection S1 as ->.
    destruct (lstat_inode w t new) as [j|] eqn:Lj; [|destruct S2; discriminate]. injection S2 as ->.
    apply in_the_way_iff in IW.
    apply Stay; [eapply same_trans; [exact V1|]; eapply same_trans; eauto| |].
    + intros ->. destruct PR as (dir' & base & c & L' & -> & _ & _ & _ & _ & E).
      destruct (last_component_fun _ _ _ _ _ L L') as [<- <-]. exists c. split; [exact E|]. cbn [l_name l_dir l_target].
      destruct (Se n c FN E) as [Sl _].
      destruct c as [|c0 c]; [auto|]. right. right. exists j. split; auto.
      assert (L2 : last_component (dir ++ c0 :: c) dir (c0 :: c)) by (destruct L as (_ & _ & D); split; [reflexivity|now split]).
      rewrite (lstat_last w t _ dir (c0 :: c) L2), (place_last w t _ dir (c0 :: c) L2) in Lj by discriminate.
      destruct (usable w (dir ++ c0 :: c)); [|discriminate].
      rewrite (start_agrees w _ q dir _ n L2 L), Wa in Lj. exact Lj.
    + intros new' [PR' (i' & Li' & H)]. rewrite (proper_rename_fun _ _ _ _ PR' PR) in H. rewrite Lj in H.
      assert (i' = i) by congruence. subst i'. destruct H as [H|[H H2]]; [discriminate|]. injection H as ->.
      destruct IW as [IW|IW]; [now apply IW|lia].
  - (* dry run *) congruence.
  - (* renamed *)
    inversion Un as [|? ? U1 Un1]; subst. inversion Un1 as [|? ? U2 Un2]; subst. cbn in U1, U2.
    cbn [app steps] in St. destruct St as (s1 & S1 & s2 & S2 & St). apply lstat_step in S1, S2.
    destruct S1 as [V1 S1], S2 as [V2 S2]. fold t in S1. rewrite (proj1 V1) in S2. fold t in S2. rewrite Ls in S1. injection S1 as ->.
    apply steps_app in St. destruct St as (s3 & S3 & St). cbn [steps] in St. destruct St as (s4 & S4 & St). subst s4.
    assert (V : same s s3).
    { eapply same_trans; [exact V1|]. eapply same_trans; [exact V2|]. unfold announcement_of in S3.
      destruct (0 <? o_verbose o)%N; cbn [steps] in S3.
      - destruct S3 as (s5 & S3 & ->). now apply print_step in S3.
      - subst s3. apply same_refl. }
    destruct V as [Vt Vs]. fold t in Vt. destruct S4 as [R4 [WN Str]]. rewrite Vt in R4. cbn in R4.
    destruct PR as (dir' & base & c & L' & -> & B' & _ & _ & Nc & E).
    destruct (last_component_fun _ _ _ _ _ L L') as [<- <-]. destruct (Se n c FN E) as [Sl Cc].
    assert (WR : would_rename w o t P (dir ++ c)).
    { split; [exists dir, n, c; splits; auto|]. exists i. split; auto.
      destruct (lstat_inode w t (dir ++ c)) as [j|] eqn:Lj; [|auto]. subst r. cbn in WF. right.
      rewrite in_the_way_iff in WF. destruct (inode_eqb j i) eqn:Ji.
      - apply inode_eqb_eq in Ji. subst j. split; auto. apply N.nlt_ge. intros X. apply WF. now right.
      - apply inode_eqb_neq in Ji. exfalso. apply WF. now left. }
    destruct (rename_retitles w o t P dir n d m i via c (tree_of s')) as (C0 & C1 & C2 & Re & W'); auto.
    assert (L2 : last_component (dir ++ c) dir c) by (destruct L as (_ & _ & D); split; [reflexivity|now split]).
    assert (G' : good w (tree_of s')) by (split; [auto|split; [eapply retitled_no_loops; [apply G|exact Re]|auto]]).
    exists c, c.
    assert (FC : file_name c).
    { destruct Re as (_ & _ & _ & Li & _). apply (proj2 (proj2 G') (mkLink d c i)). apply Li. now right. }
    splits; auto.
    + intros h x due Eh. rewrite Str, Vs, Eh. eexists. split; [reflexivity|]. intros y Iy Ny. apply filter_In. split; auto.
      apply existsb_exists. exists y. split; auto. now apply str_eqb_eq.
    + right. rewrite app_assoc. apply in_or_app. right. now left.
    + rewrite (start_agrees w _ P dir c n L2 L). eapply (retitled_walk w t _ d m i c n); eauto.
    + intros ->. split; auto. exists c. split; auto.
    + intros new [(d2 & b2 & c2 & L3 & _ & _ & _ & _ & N3 & E3) _]. destruct (last_component_fun _ _ _ _ _ L2 L3) as [<- <-].
      unfold cleans_to in Cc. rewrite E3 in Cc. injection Cc as Cc. contradiction.
    + intros x Ix A. exact (retitled_at_rest w o t _ _ (tree_of s') x n G W' Re Se Rc F E Ix A).
  - (* failed *)
    exfalso. apply Forall_app in Un. destruct Un as [_ Un]. apply Forall_app in Un. destruct Un as [_ Un].
    inversion Un as [|? ? U1 Un1]; subst. discriminate.
Qed.

(** The remarks of the filters leave everything as it is. *)
Lemma commented_same w o p ws : commented o p ws -> forall s s', steps w s ws s' -> same s s'.
Proof.
  intros H s s' St.
  assert (G : forall l s, steps w s (map heard l) s' -> same s s').
  { clear. induction l as [|[out text] l IH]; intros s St; cbn [map steps heard] in St; [subst; apply same_refl|].
    destruct St as (s1 & S1 & St). apply print_step in S1. eapply same_trans; eauto. }
  destruct H; [exact (G [] s St)|exact (G _ s St)].
Qed.

Lemma file_lemma w o s tr s' P q dir n d m i via :
  good w (tree_of s) -> all_searchable w -> settles o -> respects_case w o -> o_dry_run o = false ->
  last_component P dir n -> file_name n -> n <> bs "." -> n <> bs ".." -> usable w P = true ->
  walk w (tree_of s) (max_symlinks w) (start_of w P) (components dir) = Some (d, via) -> is_dir w d = true ->
  In (mkLink d m i) (links (tree_of s)) -> fold_name w d m = fold_name w d n ->
  (forall x y, In (x, y) via -> y = bs "." \/ y = bs ".." \/ ~ (x = d /\ fold_name w d y = fold_name w d n)) ->
  file_done o P tr q -> steps w s tr s' -> Forall (unhindered w) tr ->
  exists n' b,
    good w (tree_of s') /\ retitled w (tree_of s) (mkLink d m i) (mkLink d n' i) (tree_of s') /\
    streams_kept s s' /\
    (q = P \/ In (Ev (Rename P q) None) tr) /\ last_component q dir b /\ file_name b /\ b <> bs "." /\ b <> bs ".." /\
    usable w q = true /\ fold_name w d n' = fold_name w d b /\
    walk w (tree_of s') (max_symlinks w) (start_of w q) (components dir) = Some (d, via) /\
    (m = n -> at_rest w o (tree_of s') (mkLink d n' i) /\ n' = b) /\
    (forall new, ~ would_rename w o (tree_of s') q new) /\
    (forall x, In x (links (tree_of s)) -> at_rest w o (tree_of s) x -> at_rest w o (tree_of s') x).
Proof.
  intros G AS Se Rc Dry L FN D1 D2 U Wa K I F NT FD St Un.
  destruct FD as [ws tr q Cm FH]. apply steps_app in St. destruct St as (s1 & S1 & St).
  destruct (commented_same _ _ _ _ Cm _ _ S1) as [T V]. apply Forall_app in Un. destruct Un as [_ Un].
  rewrite <- T in *.
  destruct (handled_lemma w o s1 tr s' P q dir n d m i via) as (n' & b & A1 & A2 & A3 & A4 & A5); auto.
  exists n', b. splits; try apply A5; auto.
  - intros h x due Eh. rewrite <- V in Eh. exact (A3 h x due Eh).
  - destruct A4; auto using in_or_app.
Qed.
