(** * An argument that is a directory, once and again *)

From Verif Require Import Base BaseFacts CleanSpec Filter Filelist Prog ProgFacts File FS FSProofs FileSpec FileProofs FileProofs2
  RunSpec RunProofs RunProofs3 TidySpec TidyProofs TidyProofs2 TidyProofs3.

Local Open Scope nat_scope.

(** ** Paths to directories *)

(** A path that lstat finds a directory at can be followed to it. *)
Lemma lstat_walk w t p i : lstat_inode w t p = Some i -> is_dir w i = true ->
  exists via, walk w t (max_symlinks w) (start_of w p) (components p) = Some (i, via).
Proof.
  intros L K. unfold lstat_inode in L. destruct (usable w p && nonempty p)%bool; [|discriminate].
  destruct (trailing_slash p).
  - destruct (walk w t (max_symlinks w) (start_of w p) (components p)) as [[j via]|]; [|discriminate].
    destruct (is_dir w j); [|discriminate]. injection L as <-. eauto.
  - destruct (place w t p) as [[[d n] via]|] eqn:P; [|discriminate]. unfold place in P. destruct (usable w p); [|discriminate].
    destruct (unlast (components p)) as [[front last]|] eqn:U; [|discriminate].
    destruct (walk w t (max_symlinks w) (start_of w p) front) as [[e v]|] eqn:W; [|discriminate]. injection P as -> -> ->.
    assert (C : components p = front ++ [n]).
    { unfold unlast in U. destruct (rev (components p)) eqn:R; [discriminate|]. injection U as <- <-.
      rewrite <- (rev_involutive (components p)), R. reflexivity. }
    exists (via ++ [(d, n)]). rewrite C. now apply walk_last.
Qed.

(** ... and is still found when only entries below it have changed. *)
Lemma lstat_outside w t t' p i : wf_tree w t -> wf_tree w t' -> only_in (below t i) t t' ->
  comes_from_outside w t i p -> is_dir w i = true -> lstat_inode w t p = Some i -> lstat_inode w t' p = Some i.
Proof.
  intros W W' O C K L. destruct (lstat_walk w t p i L K) as (via & Wa).
  assert (Out := fun x c => C i via x c Wa).
  unfold lstat_inode in *. destruct (usable w p && nonempty p)%bool eqn:UN; [|discriminate].
  destruct (trailing_slash p).
  - rewrite (walk_outside w _ t t' _ _ _ _ _ W W' O Out Wa). now rewrite K.
  - destruct (place w t p) as [[[d n] v]|] eqn:P; [|discriminate]. unfold place in *. destruct (usable w p); [|discriminate].
    destruct (unlast (components p)) as [[front last]|] eqn:U; [|discriminate].
    destruct (walk w t (max_symlinks w) (start_of w p) front) as [[e v']|] eqn:Wf; [|discriminate]. injection P as -> -> ->.
    assert (Cp : components p = front ++ [n]).
    { unfold unlast in U. destruct (rev (components p)) eqn:R; [discriminate|]. injection U as <- <-.
      rewrite <- (rev_involutive (components p)), R. reflexivity. }
    rewrite Cp, (walk_last w t n i _ _ _ _ _ Wf L K) in Wa. injection Wa as <-.
    assert (Of : forall x c, In (x, c) v -> c = bs "." \/ c = bs ".." \/ ~ below t i x).
    { intros x c I. apply Out. apply in_or_app. now left. }
    rewrite (walk_outside w _ t t' _ _ _ _ _ W W' O Of Wf).
    destruct (Out d n) as [->|[->|N]]; [apply in_or_app; right; now left| | |].
    + exact L.
    + unfold lookup in *. cbn in *. destruct O as (Pa & _). now rewrite Pa.
    + now rewrite (lookup_outside w _ t t' d n W W' O N).
Qed.

Lemma not_proper o p dir n new : last_component p dir n -> n = [] \/ n = bs "." \/ n = bs ".." -> ~ proper_rename o p new.
Proof.
  intros L H (d & b & c & L' & _ & B & D1 & D2 & _). destruct (last_component_fun _ _ _ _ _ L L') as [-> ->]. tauto.
Qed.

Section argument.
  Variables (w : world) (o : options_t) (names : list str).
  Hypothesis AS : all_searchable w.
  Hypothesis Se : settles o.
  Hypothesis Rc : respects_case w o.
  Hypothesis Dry : o_dry_run o = false.

  Lemma argument_ok k f tr k' s s' i :
    good w (tree_of s) -> lstat_inode w (tree_of s) f = Some i -> kind_of w i = KDir ->
    comes_from_outside w (tree_of s) i f -> not_through_itself w (tree_of s) f ->
    (forall dir n, last_component f dir n -> n = [] \/ file_name n) ->
    argument_done o names k f tr k' -> steps w s tr s' -> Forall (unhindered w) tr ->
    exists q, (q = f \/ In (Ev (Rename f q) None) tr) /\ good w (tree_of s') /\ lstat_inode w (tree_of s') q = Some i /\
      (forall new, ~ would_rename w o (tree_of s') q new) /\ all_in_order w o names (tree_of s') i.
  Proof.
    intros G Ls K C NT FN AD St Un.
    assert (Kd : is_dir w i = true) by (unfold is_dir; now rewrite K).
    assert (Sc : forall s1, steps w s (scanning o f) s1 -> same s s1).
    { intros s1 H. unfold scanning in H. destruct (0 <? o_verbose o)%N; cbn [steps] in H.
      - destruct H as (s2 & H & ->). now apply print_step in H.
      - subst s1. apply same_refl. }
    assert (Un0 : Forall (unhindered w) tr) by assumption.
    destruct AD as [m|st t1 q Kind FD|st Kind Sp|st t1 q t2 k' Kind FD DD];
      apply steps_app in St; destruct St as (s1 & S1 & St); apply Sc in S1; apply Forall_app in Un; destruct Un as [_ Un];
      cbn [steps] in St; destruct St as (s2 & S2 & St); apply lstat_step in S2; destruct S2 as [V2 S2];
      rewrite (proj1 S1), Ls in S2; try discriminate; injection S2 as ->;
      try (exfalso; assert (X : st_kind (stat_of w (tree_of s) i) = SDir) by (now apply kind_stat); destruct Kind as [Kind|[Kind _]]; congruence);
      try (exfalso; assert (X : st_kind (stat_of w (tree_of s) i) = SDir) by (now apply kind_stat); congruence).
    assert (V : same s s2) by (eapply same_trans; eauto). destruct V as [T V].
    apply steps_app in St. destruct St as (s3 & S3 & S4). inversion Un as [|? ? _ Un1]; subst.
    apply Forall_app in Un1. destruct Un1 as [Un1 Un2].
    (* what is left to show after the argument itself has been dealt with *)
    assert (Rest : forall dir b via0 d, good w (tree_of s3) -> lstat_inode w (tree_of s3) q = Some i -> 
      comes_from_outside w (tree_of s3) i q -> (forall new, ~ would_rename w o (tree_of s3) q new) ->
      (last_component q dir b) ->
      (b = [] \/ b = bs "." \/ b = bs ".." \/ file_name b /\ ~ below (tree_of s3) i d /\ is_dir w d = true /\ usable w q = true /\
        walk w (tree_of s3) (max_symlinks w) (start_of w q) (components dir) = Some (d, via0)) ->
      good w (tree_of s') /\ lstat_inode w (tree_of s') q = Some i /\
        (forall new, ~ would_rename w o (tree_of s') q new) /\ all_in_order w o names (tree_of s') i).
    { intros dir b via0 d G3 L3 C3 WR Lb Hb. destruct (lstat_walk w _ q i L3 Kd) as (via & Wa).
      destruct (proj1 (walk_ok w o names AS Se Rc Dry) _ _ _ _ DD s3 s' i via) as (G' & F' & A'); auto.
      { intros x c. eapply C3; eauto. }
      assert (L' : lstat_inode w (tree_of s') q = Some i).
      { eapply lstat_outside; [apply G3|apply G'|apply F'|exact C3|exact Kd|exact L3]. }
      splits; auto. intros new [PR (i' & Li' & Fr)]. assert (i' = i) by congruence. subst i'.
      destruct Hb as [Hb|[Hb|[Hb|(Fb & Nd & Kdd & Uq & Wd)]]];
        try (apply (not_proper o q dir b new Lb) in PR; auto; fail).
      assert (Pr := PR). destruct PR as (dir' & b' & c & Lb' & -> & B0 & B1 & B2 & Nc & E).
      destruct (last_component_fun _ _ _ _ _ Lb Lb') as [<- <-]. destruct (Se b c Fb E) as [Sl _].
      apply (WR (dir ++ c)). split; auto. exists i. split; auto.
      assert (Wd' : walk w (tree_of s') (max_symlinks w) (start_of w q) (components dir) = Some (d, via0)).
      { eapply walk_outside; [apply G3|apply G'|apply F'| |exact Wd]. intros x y Ix.
        destruct (lstat_walk w _ q i L3 Kd) as (via' & Wq). apply (C3 i via' x y Wq).
        rewrite (lstat_last w _ q dir b Lb B0), (place_last w _ q dir b Lb B0), Uq, Wd in L3.
        rewrite (components_last q dir b Lb B0), (walk_last w _ b i _ _ _ _ _ Wd L3 Kd) in Wq. injection Wq as <-.
        apply in_or_app. now left. }
      assert (Ln : lstat_inode w (tree_of s3) (dir ++ c) = lstat_inode w (tree_of s') (dir ++ c)).
      { destruct c as [|c0 c].
        - rewrite app_nil_r. destruct dir as [|e dir]; [unfold lstat_inode; now rewrite andb_false_r|].
          assert (Pl : forall t, walk w t (max_symlinks w) (start_of w q) (components (e :: dir)) = Some (d, via0) ->
             lstat_inode w t (e :: dir) = if usable w (e :: dir) then Some d else None).
          { intros t Wt. destruct (usable w (e :: dir)) eqn:Ue; [|unfold lstat_inode; now rewrite Ue].
            eapply (lstat_dir_part w t q (e :: dir) b); eauto; [discriminate|]. now rewrite (place_last w t q (e :: dir) b Lb B0), Uq, Wt. }
          rewrite !Pl; auto.
        - assert (L2 : last_component (dir ++ c0 :: c) dir (c0 :: c)) by (destruct Lb as (_ & _ & D); split; [reflexivity|now split]).
          rewrite !(lstat_last w _ _ dir (c0 :: c) L2), !(place_last w _ _ dir (c0 :: c) L2) by discriminate.
          rewrite (start_agrees w _ q dir _ b L2 Lb), Wd, Wd'.
          destruct (usable w (dir ++ c0 :: c)); [|reflexivity].
          symmetry. apply (lookup_outside w (below (tree_of s3) i)); [apply G3|apply G'|apply F'|exact Nd]. }
      rewrite Ln. destruct Fr as [Fr|[Fr Fr2]]; [now left|]. right. split; auto.
      destruct F' as [(_ & Rf & _) _]. now rewrite (stat_same w _ _ i Rf) in Fr2. }
    assert (Inl : In (Ev (Rename f q) None) t1 -> In (Ev (Rename f q) None) (scanning o f ++ Ev (Lstat f) (inl (stat_of w (tree_of s) i)) :: t1 ++ t2)).
    { intros H. apply in_or_app. right. right. apply in_or_app. now left. }
    destruct (split_path f) as [dir n] eqn:Sp. apply split_path_spec in Sp. rename Sp into L.
    assert (Cases : (n = [] \/ n = bs "." \/ n = bs "..") \/ (file_name n /\ n <> bs "." /\ n <> bs "..")).
    { destruct (str_eqb n (bs ".")) eqn:E1; [apply str_eqb_eq in E1; tauto|].
      destruct (str_eqb n (bs "..")) eqn:E2; [apply str_eqb_eq in E2; tauto|].
      destruct (FN dir n L) as [->|F]; [tauto|]. right. split; auto.
      split; intros ->; discriminate. }
    destruct Cases as [Hn|(F & D1 & D2)].
    - (* never renamed *)
      assert (E : same s2 s3 /\ q = f).
      { destruct FD as [ws t q Cm FH].
        assert (t = [] /\ q = f) as [-> ->] by (inversion FH; subst; auto; exfalso; eapply not_proper; eauto).
        rewrite app_nil_r in S3. split; [eapply commented_same; eauto|reflexivity]. }
      destruct E as [[T3 _] ->]. rewrite T in T3. rewrite T3 in *.
      exists f. destruct (Rest dir n [] i) as (R1 & R2 & R3 & R4); auto.
      + intros new [PR _]. now apply (not_proper o f dir n new L) in PR.
      + tauto.
    - assert (N0 : n <> []) by apply F.
      pose proof Ls as Ls'. rewrite (lstat_last w _ f dir n L N0) in Ls'.
      destruct (place w (tree_of s) f) as [[[d n'] via0]|] eqn:P; [|discriminate].
      assert (Pl := P). rewrite (place_last w _ f dir n L N0) in Pl. destruct (usable w f) eqn:U; [|discriminate].
      destruct (walk w (tree_of s) (max_symlinks w) (start_of w f) (components dir)) as [[d' v']|] eqn:Wd; [|discriminate].
      injection Pl as -> <- ->.
      pose proof (lookup_searchable _ _ _ _ _ Ls') as Sr. apply andb_true_iff in Sr. destruct Sr as [Kdd Sr].
      assert (En : entry w (tree_of s) d n = Some i).
      { rewrite lookup_plain, Kdd, Sr in Ls'; auto; apply not_true_iff_false; rewrite ?dot_name_iff, ?dotdot_name_iff; auto. }
      apply entry_iff in En; [|now apply good_keys]. destruct En as ([d2 m j] & Im & Km & Tm). cbn in Tm. subst j.
      unfold key in Km. cbn in Km. injection Km as -> Fm.
      destruct (file_lemma w o s2 t1 s3 f q dir n d m i via0) as
        (n2 & b & G3 & Re & Sk & Eq & Lb & B0 & B1 & B2 & Uq & Fb & Wq & _ & WR & _); rewrite ?T; auto.
      { intros x y Ix. right. right. intros X. exact (NT d n via0 P x y Ix X). }
      rewrite T in Re.
      assert (I3 : In (mkLink d n2 i) (links (tree_of s3))) by (destruct Re as (_ & _ & _ & Li & _); apply Li; now right).
      assert (Nb : ~ below (tree_of s3) i d) by (exact (proj1 (proj2 G3) _ I3 Kd)).
      destruct (found w (tree_of s3) q dir b d n2 i via0) as (_ & Lk & Lq); auto; [apply G3|apply B0|].
      assert (Bn : b <> []) by apply B0.
      destruct (Rest dir b via0 d) as (R1 & R2 & R3 & R4); auto.
      + intros j via x c Wj Ix. rewrite (components_last q dir b Lb Bn), (walk_last w _ b i _ _ _ _ _ Wq Lk Kd) in Wj.
        injection Wj as <- <-. apply in_app_or in Ix. destruct Ix as [Ix|[Ix|[]]].
        * destruct (C i (via0 ++ [(d, n)]) x c) as [H|[H|H]]; auto.
          -- rewrite (components_last f dir n L N0). now apply walk_last.
          -- apply in_or_app. now left.
          -- right. right. intros X. apply H. eapply below_ext; [|exact X]. destruct Re as (_ & _ & _ & _ & Pa & _). intros. now rewrite Pa.
        * injection Ix as <- <-. auto.
      + right. right. right. splits; auto.
      + exists q. splits; auto. destruct Eq as [Eq|Eq]; auto.
  Qed.
End argument.
