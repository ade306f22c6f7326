(** * Complete runs on several arguments *)

From Verif Require Import Base BaseFacts Table CleanString CleanSpec Filter Filelist Prog ProgFacts Spoof SequenceSpec SequenceProofs
  File FS FSProofs FileSpec FilelistProofs FileProofs FileProofs2
  RunSpec RunProofs RunProofs3 TidySpec TidyProofs TidyProofs2 TidyProofs3 TidyProofs4 TidyProofs5 TidyProofs6 SeveralSpec.

Local Open Scope nat_scope.

Lemma walk_visited w t n : forall d comps e via,
  walk w t n d comps = Some (e, via) -> forall x c, In (x, c) via -> exists i, lookup w t x c = Some i.
Proof.
  induction n as [|n IHn]; intros d comps; revert d; induction comps as [|c0 rest IH]; intros d e via W x c I.
  - rewrite walk_nil in W. injection W as <- <-. destruct I.
  - rewrite walk_cons in W. destruct (lookup w t d c0) as [i|] eqn:L; [|discriminate].
    destruct (kind_of w i); try discriminate;
      match goal with H : match ?M with _ => _ end = _ |- _ => destruct M as [[j v]|] eqn:X; [|discriminate] end;
      injection W as <- <-; (destruct I as [I|I]; [injection I as <- <-; eauto|eapply IH; eauto]).
  - rewrite walk_nil in W. injection W as <- <-. destruct I.
  - rewrite walk_cons in W. destruct (lookup w t d c0) as [i|] eqn:L; [|discriminate].
    destruct (kind_of w i);
      match goal with H : match ?M with _ => _ end = _ |- _ => destruct M as [[j v]|] eqn:X; [|discriminate] end;
      injection W as <- <-; (destruct I as [I|I]; [injection I as <- <-; eauto|first [eapply IH; eassumption|eapply IHn; eassumption]]).
Qed.

Lemma lookup_entry w t x c : c <> bs "." -> c <> bs ".." ->
  lookup w t x c = if (is_dir w x && searchable w x)%bool then entry w t x c else None.
Proof.
  intros A B. unfold lookup. destruct (is_dir w x && searchable w x)%bool; auto.
  destruct (dot_name c) eqn:E1; [apply dot_name_iff in E1; contradiction|].
  destruct (dotdot_name c) eqn:E2; [apply dotdot_name_iff in E2; contradiction|reflexivity].
Qed.

Lemma inside_ext w t t' k x : (forall y, parent t' y = parent t y) -> inside w t' k x -> inside w t k x.
Proof. intros P [K B]. split; auto. eapply below_ext; [|exact B]. intros. now rewrite P. Qed.

(** What dealing with one argument, entry [i] of directory [d], may change *)
Definition effect (w : world) (o : options_t) (d i : inode) (t t' : tree) : Prop :=
  (forall x, parent t' x = parent t x) /\ (forall x, refs t' x = refs t x) /\
  (forall l, ~ inside w t i (l_dir l) -> ~ (l_dir l = d /\ l_target l = i) -> In l (links t') <-> In l (links t)) /\
  (forall l, In l (links t) -> l_dir l = d -> l_target l = i -> ~ inside w t i d ->
     exists l', In l' (links t') /\ l_dir l' = d /\ l_target l' = i /\
       (fold_name w d (l_name l') = fold_name w d (l_name l) \/
        exists n b, fold_name w d n = fold_name w d (l_name l) /\ cleans_to o n b /\ fold_name w d b = fold_name w d (l_name l'))).

Lemma only_effect w o d i t t' : only_in (inside w t i) t t' -> effect w o d i t t'.
Proof.
  intros (P & R & L). unfold effect. splits; auto. intros l I D T N. exists l. splits; auto. apply L; [now rewrite D|exact I].
Qed.

Lemma retitled_effect w o d i m n' t t3 t' :
  retitled w t (mkLink d m i) (mkLink d n' i) t3 -> only_in (inside w t i) t3 t' ->
  (fold_name w d n' = fold_name w d m \/ exists n b, fold_name w d n = fold_name w d m /\ cleans_to o n b /\ fold_name w d b = fold_name w d n') ->
  effect w o d i t t'.
Proof.
  intros (_ & _ & I & Li & Pa & Rf) (P & R & L) F. unfold effect. splits.
  - intros x. now rewrite P.
  - intros x. now rewrite R.
  - intros l N X. rewrite (L l N), Li. split.
    + intros [[H _]|H]; auto. subst l. exfalso. apply X. now split.
    + intros H. left. split; auto. intros E. subst l. apply X. now split.
  - intros l Il D T N. destruct (link_dec l (mkLink d m i)) as [E|E].
    + subst l. exists (mkLink d n' i). cbn. splits; auto. apply L; [exact N|]. apply Li. now right.
    + exists l. splits; auto. apply L; [now rewrite D|]. apply Li. now left.
Qed.

Section effects.
  Variables (w : world) (o : options_t).
  Hypothesis Se : settles o.
  Hypothesis Rc : respects_case w o.

  Lemma effect_lookup d i t t' x c j : good w t -> good w t' -> effect w o d i t t' -> lookup w t x c = Some j ->
    c = bs "." \/ c = bs ".." \/ ~ inside w t i x /\ (x <> d \/ j <> i) -> lookup w t' x c = Some j.
  Proof.
    intros G G' (P & R & L & _) E H.
    destruct H as [->|[->|[N H]]].
    - unfold lookup in *. destruct (is_dir w x && searchable w x)%bool; auto.
    - unfold lookup in *. destruct (is_dir w x && searchable w x)%bool; auto. cbn in *. now rewrite P.
    - unfold lookup in *. destruct (is_dir w x && searchable w x)%bool; auto.
      destruct (dot_name c); auto. destruct (dotdot_name c); [now rewrite P|].
      apply entry_iff in E; [|now apply good_keys]. destruct E as (y & Iy & K & T).
      apply entry_iff; [now apply good_keys|]. exists y. splits; auto.
      assert (D : l_dir y = x) by (unfold key in K; now injection K).
      apply L; auto; [now rewrite D|]. rewrite D, T. intros [A B]. destruct H; contradiction.
  Qed.

  (** A clean name that is in use stays in use. *)
  Lemma effect_taken d i t t' x c j : good w t -> good w t' -> effect w o d i t t' -> lookup w t x c = Some j ->
    ~ inside w t i x -> cleans_to o c c -> lookup w t' x c = Some j.
  Proof.
    intros G G' (P & R & L & M) E N Cc. unfold lookup in *. destruct (is_dir w x && searchable w x)%bool; auto.
    destruct (dot_name c); auto. destruct (dotdot_name c); [now rewrite P|].
    apply entry_iff in E; [|now apply good_keys]. destruct E as (y & Iy & K & T).
    apply entry_iff; [now apply good_keys|].
    assert (D : l_dir y = x) by (unfold key in K; now injection K).
    assert (Fy : fold_name w x (l_name y) = fold_name w x c) by (unfold key in K; rewrite D in K; now injection K).
    destruct (inode_eqb x d && inode_eqb j i)%bool eqn:Q.
    - apply andb_true_iff in Q. destruct Q as [Q1 Q2]. apply inode_eqb_eq in Q1, Q2. subst d i.
      destruct (M y Iy D T N) as (l' & Il & Dl & Tl & F). exists l'. splits; auto.
      unfold key. rewrite Dl. f_equal. destruct F as [F|(n & b & F1 & F2 & F3)]; [congruence|].
      rewrite <- F3. eapply Rc; [exact F2|exact Cc|]. congruence.
    - exists y. splits; auto. apply L; auto; [now rewrite D|]. rewrite D, T. intros [A B]. subst d i.
      rewrite !inode_eqb_refl in Q. discriminate.
  Qed.

  Lemma effect_walk ks d i t t' k0 e comps f via : good w t -> good w t' -> effect w o d i t t' -> In i ks ->
    (forall k, In k ks -> forall x c, In (x, c) via -> passes w t k x c) ->
    walk w t k0 e comps = Some (f, via) ->
    walk w t' k0 e comps = Some (f, via) /\ (forall k, In k ks -> forall x c, In (x, c) via -> passes w t' k x c).
  Proof.
    intros G G' E I C W.
    assert (S : forall x c j, In (x, c) via -> lookup w t x c = Some j -> lookup w t' x c = Some j).
    { intros x c j Ix Lk. apply (effect_lookup d i t t'); auto. destruct (C i I x c Ix) as [H|[H|[H1 H2]]]; auto.
      right. right. split; auto. right. congruence. }
    split; [eapply walk_stable; eauto|]. intros k Ik x c Ix. destruct (C k Ik x c Ix) as [H|[H|[H1 H2]]]; [now left|right; now left|].
    right. right. split.
    - intros H. apply H1. eapply inside_ext; [|exact H]. apply E.
    - destruct (walk_visited _ _ _ _ _ _ _ W x c Ix) as (j & Lj). rewrite (S x c j Ix Lj). congruence.
  Qed.

  Lemma effect_stands ks d i t t' p j dir b e via : good w t -> good w t' -> effect w o d i t t' -> In i ks -> (j <> i \/ e <> d) ->
    stands_at w t ks p j dir b e via -> stands_at w t' ks p j dir b e via.
  Proof.
    intros G G' E I N (L & F & D1 & D2 & U & W & Lk & C).
    destruct (effect_walk ks d i t t' _ _ _ _ _ G G' E I (fun k Ik => proj2 (C k Ik)) W) as (W' & C').
    unfold stands_at. splits; auto.
    - apply (effect_lookup d i t t'); auto. right. right. split; [now apply C|tauto].
    - intros k Ik. split; [|now apply C']. intros H. apply (proj1 (C k Ik)). eapply inside_ext; [|exact H]. apply E.
  Qed.

  Lemma stands_lstat t ks p i dir b d via : stands_at w t ks p i dir b d via -> lstat_inode w t p = Some i.
  Proof.
    intros (L & F & _ & _ & U & W & Lk & _). assert (B : b <> []) by apply F.
    now rewrite (lstat_last w t p dir b L B), (place_last w t p dir b L B), U, W.
  Qed.

  Lemma stands_dir t ks p i dir b d via : stands_at w t ks p i dir b d via -> is_dir w d = true.
  Proof. intros (_ & _ & _ & _ & _ & _ & Lk & _). apply lookup_searchable in Lk. apply andb_true_iff in Lk. apply Lk. Qed.

  (** There is still no reason to rename. *)
  Lemma rename_kept ks d i t t' p j dir b e via : good w t -> good w t' -> effect w o d i t t' -> In i ks ->
    stands_at w t ks p j dir b e via -> stands_at w t' ks p j dir b e via ->
    (forall new, ~ would_rename w o t p new) -> forall new, ~ would_rename w o t' p new.
  Proof.
    intros G G' E I St St' WR new [PR (j' & Lj' & Fr)]. rewrite (stands_lstat _ _ _ _ _ _ _ _ St') in Lj'. injection Lj' as <-.
    apply (WR new). split; auto. exists j. split; [exact (stands_lstat _ _ _ _ _ _ _ _ St)|].
    assert (Rf : stat_of w t' j = stat_of w t j) by (apply stat_same; apply E). rewrite Rf in Fr.
    pose proof St as (L & F & D1 & D2 & U & W & Lk & C). pose proof St' as (_ & _ & _ & _ & _ & W' & _).
    destruct PR as (dir' & b' & c & L' & -> & B0 & _ & _ & Nc & Ec). destruct (last_component_fun _ _ _ _ _ L L') as [<- <-].
    destruct (Se b c F Ec) as [Sl Cc]. pose proof (stands_dir _ _ _ _ _ _ _ _ St) as Kd.
    destruct c as [|c0 c].
    - rewrite app_nil_r in *. destruct dir as [|a dir]; [left; unfold lstat_inode; now rewrite andb_false_r|].
      assert (Pl : forall t0, walk w t0 (max_symlinks w) (start_of w p) (components (a :: dir)) = Some (e, via) ->
         lstat_inode w t0 (a :: dir) = if usable w (a :: dir) then Some e else None).
      { intros t0 Wt. destruct (usable w (a :: dir)) eqn:Ue; [|unfold lstat_inode; now rewrite Ue].
        eapply (lstat_dir_part w t0 p (a :: dir) b); eauto; [discriminate|]. now rewrite (place_last w t0 p (a :: dir) b L B0), U, Wt. }
      rewrite (Pl t W). rewrite (Pl t' W') in Fr. exact Fr.
    - assert (L2 : last_component (dir ++ c0 :: c) dir (c0 :: c)) by (destruct L as (_ & _ & D); split; [reflexivity|now split]).
      assert (Pl : forall t0, walk w t0 (max_symlinks w) (start_of w p) (components dir) = Some (e, via) ->
         lstat_inode w t0 (dir ++ c0 :: c) = if usable w (dir ++ c0 :: c) then lookup w t0 e (c0 :: c) else None).
      { intros t0 Wt. rewrite (lstat_last w t0 _ dir (c0 :: c) L2), (place_last w t0 _ dir (c0 :: c) L2) by discriminate.
        rewrite (start_agrees w _ p dir _ b L2 L), Wt. now destruct (usable w (dir ++ c0 :: c)). }
      rewrite (Pl t W). rewrite (Pl t' W') in Fr. destruct (usable w (dir ++ c0 :: c)); [|now left].
      destruct (lookup w t e (c0 :: c)) as [x|] eqn:Lx; [|now left].
      rewrite (effect_taken d i t t' e (c0 :: c) x G G' E Lx (proj1 (C i I)) Cc) in Fr. exact Fr.
  Qed.

  (** The trees of two arguments have nothing in common. *)
  Lemma stands_parent t ks p i dir b d via : good w t -> stands_at w t ks p i dir b d via -> is_dir w i = true -> parent t i = d.
  Proof.
    intros G (L & F & D1 & D2 & U & W & Lk & C) K. rewrite (lookup_entry w t d b D1 D2) in Lk.
    destruct (is_dir w d && searchable w d)%bool; [|discriminate]. apply entry_iff in Lk; [|now apply good_keys].
    destruct Lk as (y & Iy & Ky & T). rewrite <- T in *. rewrite (good_parent w t y G Iy K). unfold key in Ky. now injection Ky.
  Qed.

  Lemma stands_apart t ks p i dir b d via q j dir' b' e via' x : good w t ->
    stands_at w t ks p i dir b d via -> stands_at w t ks q j dir' b' e via' -> In i ks -> In j ks -> i <> j ->
    inside w t i x -> inside w t j x -> False.
  Proof.
    intros G Si Sj Ii Ij N [Ki Bi] [Kj Bj].
    assert (H : forall a b0, a <> b0 -> is_dir w a = true -> is_dir w b0 = true -> forall da, parent t b0 = da -> ~ inside w t a da -> ~ below t a b0).
    { intros a b0 Nab Ka Kb da Pa Na B. inversion B; subst; [contradiction|]. apply Na. now split. }
    destruct (below_linear t i j x Bi Bj) as [B|B].
    - refine (H i j N Ki Kj e _ _ B); [eapply stands_parent; eauto|]. destruct Sj as (_ & _ & _ & _ & _ & _ & _ & C). exact (proj1 (C i Ii)).
    - refine (H j i (fun E => N (eq_sym E)) Kj Ki d _ _ B); [eapply stands_parent; eauto|]. destruct Si as (_ & _ & _ & _ & _ & _ & _ & C). exact (proj1 (C j Ij)).
  Qed.

  Definition kept_settled names ks t q i : Prop := stands w t ks q i /\ settled w o names t q i.

  Lemma settled_kept names ks t t' p i dir b d via q j : good w t -> good w t' -> effect w o d i t t' ->
    stands_at w t ks p i dir b d via -> In i ks -> In j ks -> i <> j -> kept_settled names ks t q j -> kept_settled names ks t' q j.
  Proof.
    intros G G' E Si Ii Ij N ((dir' & b' & e & via' & Sj) & Ls & WR & A).
    assert (Sj' : stands_at w t' ks q j dir' b' e via') by (apply (effect_stands ks d i t t'); auto; left; congruence).
    split; [now exists dir', b', e, via'|]. unfold settled. splits; [eapply stands_lstat; eauto|eapply (rename_kept ks d i t t'); eauto|].
    intros K. assert (Kj : is_dir w j = true) by (unfold is_dir; now rewrite K).
    apply (all_outside w o names (fun y => inside w t i y \/ y = d) t t'); auto.
    - destruct E as (P & R & L & _). unfold only_in. splits; auto. intros l Nl. apply L; [tauto|]. intros [X _]. apply Nl. now right.
    - intros y By [Hy|Hy].
      + exact (stands_apart t ks p i dir b d via q j dir' b' e via' y G Si Sj Ii Ij N Hy (conj Kj By)).
      + subst y. destruct Si as (_ & _ & _ & _ & _ & _ & _ & C). apply (proj1 (C j Ij)). now split.
  Qed.
End effects.

(** ** One argument *)

Lemma done_renames o P tr q : file_done o P tr q -> q = P \/ proper_rename o P q.
Proof. intros H. destruct H as [ws tr q Cm FH]. inversion FH; subst; auto. Qed.

Section argument.
  Variables (w : world) (o : options_t) (names : list str).
  Hypothesis AS : all_searchable w.
  Hypothesis Se : settles o.
  Hypothesis Rc : respects_case w o.
  Hypothesis Dry : o_dry_run o = false.

  Lemma argument_file ks f tr q s s' i dir n d via :
    good w (tree_of s) -> stands_at w (tree_of s) ks f i dir n d via -> In i ks ->
    file_done o f tr q -> steps w s tr s' -> Forall (unhindered w) tr ->
    (q = f \/ In (Ev (Rename f q) None) tr) /\ good w (tree_of s') /\ (exists b, stands_at w (tree_of s') ks q i dir b d via) /\
    (forall new, ~ would_rename w o (tree_of s') q new) /\
    forall t', only_in (inside w (tree_of s) i) (tree_of s') t' -> effect w o d i (tree_of s) t'.
  Proof.
    intros G St Ii FD Sp Un. pose proof St as (L & F & D1 & D2 & U & W & Lk & C).
    pose proof (stands_dir w _ _ _ _ _ _ _ _ St) as Kd.
    pose proof Lk as En. rewrite (lookup_entry w _ d n D1 D2), Kd, (AS d Kd) in En. cbn [andb] in En.
    apply entry_iff in En; [|now apply good_keys]. destruct En as ([d2 m j] & Im & Km & Tm). cbn in Tm. subst j.
    unfold key in Km. cbn in Km. injection Km as -> Fm.
    destruct (file_lemma w o s tr s' f q dir n d m i via) as
      (n2 & b & G3 & Re & Sk & Eq & Lb & B0 & B1 & B2 & Uq & Fb & Wq & _ & WR & _); auto.
    { intros x y Ix. destruct (str_eqb y (bs ".")) eqn:E1; [left; now apply str_eqb_eq|].
      destruct (str_eqb y (bs "..")) eqn:E2; [right; left; now apply str_eqb_eq|].
      apply str_eqb_neq in E1, E2. destruct (proj2 (C i Ii) x y Ix) as [H|[H|[H1 H2]]]; auto. right. right. intros [-> E].
      apply H2. rewrite (lookup_entry w _ d y E1 E2), Kd, (AS d Kd). cbn [andb]. apply entry_iff; [now apply good_keys|].
      exists (mkLink d m i). splits; auto. unfold key. cbn. now rewrite E, Fm. }
    assert (Pa : forall x, parent (tree_of s') x = parent (tree_of s) x) by apply Re.
    assert (Fo : fold_name w d n2 = fold_name w d m \/ exists n0 b0, fold_name w d n0 = fold_name w d m /\ cleans_to o n0 b0 /\ fold_name w d b0 = fold_name w d n2).
    { destruct (done_renames o f tr q FD) as [->|(dir' & n' & c & L' & Eq' & _ & _ & _ & _ & Cl)].
      - destruct (last_component_fun _ _ _ _ _ L Lb) as [_ <-]. left. congruence.
      - destruct (last_component_fun _ _ _ _ _ L L') as [<- <-]. right. exists n, c. splits; auto.
        assert (c = b) as ->; [|now symmetry]. rewrite Eq' in Lb. destruct (Se n c F Cl) as [Sl _].
        assert (L2 : last_component (dir ++ c) dir c) by (destruct L as (_ & _ & D); split; [reflexivity|now split]).
        now destruct (last_component_fun _ _ _ _ _ L2 Lb). }
    assert (Ef : forall t', only_in (inside w (tree_of s) i) (tree_of s') t' -> effect w o d i (tree_of s) t')
      by (intros t' O; eapply retitled_effect; eauto).
    splits; auto. exists b. unfold stands_at. splits; auto.
    - apply (found w (tree_of s') q dir b d n2 i via); auto; [apply G3|apply B0|]. destruct Re as (_ & _ & _ & Li & _). apply Li. now right.
    - assert (E0 : effect w o d i (tree_of s) (tree_of s')) by (apply Ef, only_in_refl).
      destruct (effect_walk w o ks d i (tree_of s) (tree_of s') _ _ _ _ _ G G3 E0 Ii (fun k Ik => proj2 (C k Ik)) W) as (_ & C').
      intros k Ik. split; [|now apply C']. intros H. apply (proj1 (C k Ik)). eapply inside_ext; [|exact H]. exact Pa.
  Qed.

  Lemma argument_more ks k f tr k' s s' i dir n d via :
    good w (tree_of s) -> stands_at w (tree_of s) ks f i dir n d via -> In i ks -> treated w o i ->
    argument_done o names k f tr k' -> steps w s tr s' -> Forall (unhindered w) tr ->
    exists q, (q = f \/ In (Ev (Rename f q) None) tr) /\ good w (tree_of s') /\ effect w o d i (tree_of s) (tree_of s') /\
      kept_settled w o names ks (tree_of s') q i.
  Proof.
    intros G Sa Ii Tr AD St Un. pose proof (stands_lstat w _ _ _ _ _ _ _ _ Sa) as Ls.
    assert (Sc : forall s1, steps w s (scanning o f) s1 -> same s s1).
    { intros s1 H. unfold scanning in H. destruct (0 <? o_verbose o)%N; cbn [steps] in H.
      - destruct H as (s2 & H & ->). now apply print_step in H.
      - subst s1. apply same_refl. }
    assert (KD : st_kind (stat_of w (tree_of s) i) = SDir <-> kind_of w i = KDir) by apply kind_stat.
    destruct AD as [m|st t1 q Kind FD|st Kind Sp|st t1 q t2 k' Kind FD DD];
      apply steps_app in St; destruct St as (s1 & S1 & St); apply Sc in S1; apply Forall_app in Un; destruct Un as [_ Un];
      cbn [steps] in St; destruct St as (s2 & S2 & St); apply lstat_step in S2; destruct S2 as [V2 S2];
      rewrite (proj1 S1), Ls in S2; try discriminate; injection S2 as ->;
      assert (V : same s s2) by (eapply same_trans; eauto); destruct V as [T V]; inversion Un as [|? ? _ Un1]; subst.
    - (* a file *)
      rewrite <- T in G, Sa. destruct (argument_file ks f t1 q s2 s' i dir n d via G Sa Ii FD St Un1) as (Q & G' & (b & Sb) & WR & Ef).
      exists q. splits; auto.
      + destruct Q as [Q|Q]; auto. right. apply in_or_app. right. now right.
      + rewrite <- T. apply Ef, only_in_refl.
      + split; [now exists dir, b, d, via|]. unfold settled. splits; [eapply stands_lstat; eauto|exact WR|].
        intros K. apply KD in K. destruct Kind as [Kind|[Kind _]]; congruence.
    - (* nothing is done *)
      exfalso. unfold stat_of in Kind. cbn [st_kind] in Kind. destruct Tr as [Tr|[Tr|Tr]]; [rewrite Tr in Kind; discriminate|rewrite Tr in Kind; discriminate|congruence].
    - (* a directory *)
      apply steps_app in St. destruct St as (s3 & S3 & S4). apply Forall_app in Un1. destruct Un1 as [Un1 Un2].
      apply KD in Kind. assert (Kd : is_dir w i = true) by (unfold is_dir; now rewrite Kind).
      rewrite <- T in G, Sa. destruct (argument_file ks f t1 q s2 s3 i dir n d via G Sa Ii FD S3 Un1) as (Q & G3 & (b & Sb) & WR & Ef).
      pose proof Sb as (Lb & B0 & B1 & B2 & Uq & Wq & Lk & C). assert (Bn : b <> []) by apply B0.
      assert (E0 : effect w o d i (tree_of s2) (tree_of s3)) by (apply Ef, only_in_refl).
      destruct (proj1 (walk_ok w o names AS Se Rc Dry) _ _ _ _ DD s3 s' i (via ++ [(d, b)])) as (G' & [F' _] & A'); auto.
      { eapply stands_lstat; eauto. }
      { rewrite (components_last q dir b Lb Bn). now apply walk_last. }
      { intros x c Ix. apply in_app_or in Ix. destruct Ix as [Ix|[Ix|[]]].
        - destruct (proj2 (C i Ii) x c Ix) as [H|[H|[H _]]]; auto. right. right. intros X. apply H. now split.
        - injection Ix as <- <-. right. right. intros X. apply (proj1 (C i Ii)). now split. }
      assert (O : only_in (inside w (tree_of s3) i) (tree_of s3) (tree_of s')) by (eapply only_in_mono; [|exact F']; intros x X; now split).
      assert (E1 : effect w o d i (tree_of s3) (tree_of s')) by (now apply only_effect).
      assert (Sb' : stands_at w (tree_of s') ks q i dir b d via).
      { destruct (effect_walk w o ks d i (tree_of s3) (tree_of s') _ _ _ _ _ G3 G' E1 Ii (fun k Ik => proj2 (C k Ik)) Wq) as (W' & C').
        unfold stands_at. splits; auto.
        - rewrite (lookup_outside w (below (tree_of s3) i) (tree_of s3)); auto; [apply G3|apply G'|]. intros X. apply (proj1 (C i Ii)). now split.
        - intros k0 Ik. split; [|now apply C']. intros H. apply (proj1 (C k0 Ik)). eapply inside_ext; [|exact H]. apply E1. }
      exists q. splits; auto.
      + destruct Q as [Q|Q]; auto. right. apply in_or_app. right. right. apply in_or_app. now left.
      + rewrite <- T. apply Ef. eapply only_in_mono; [|exact O]. intros x X. eapply inside_ext; [|exact X]. apply E0.
      + split; [now exists dir, b, d, via|]. unfold settled. splits; [eapply stands_lstat; eauto| |auto].
        eapply (rename_kept w o Se Rc ks d i (tree_of s3) (tree_of s')); eauto.
  Qed.

  (** ** All of them *)

  Lemma arguments_more ks todo : forall k tr k' s s',
    good w (tree_of s) -> NoDup (map snd todo) ->
    (forall p i, In (p, i) todo -> In i ks /\ treated w o i /\ stands w (tree_of s) ks p i) ->
    arguments_done o names k (map fst todo) tr k' -> steps w s tr s' -> Forall (unhindered w) tr ->
    good w (tree_of s') /\
    (exists qs, Forall2 (fun pi q => (q = fst pi \/ In (Ev (Rename (fst pi) q) None) tr) /\ kept_settled w o names ks (tree_of s') q (snd pi)) todo qs) /\
    (forall q i, In i ks -> ~ In i (map snd todo) -> kept_settled w o names ks (tree_of s) q i -> kept_settled w o names ks (tree_of s') q i).
  Proof.
    induction todo as [|[f i] todo IH]; intros k tr k' s s' G ND H AD St Un; cbn [map fst snd] in *.
    - inversion AD; subst. cbn [steps] in St. subst s'. splits; auto. exists []. constructor.
    - inversion AD as [|k0 f0 fs t1 k1 t2 k2 A1 A2]; subst. apply steps_app in St. destruct St as (s1 & S1 & S2). apply Forall_app in Un. destruct Un as [U1 U2].
      inversion ND as [|? ? Ni ND']; subst. destruct (H f i (or_introl eq_refl)) as (Ii & Ti & dir & n & d & via & Si).
      destruct (argument_more ks _ _ _ _ _ _ _ _ _ _ _ G Si Ii Ti A1 S1 U1) as (q & Q & G1 & Ef & Ks).
      assert (Oth : forall p j, In (p, j) todo -> j <> i).
      { intros p j Ij ->. apply Ni. change i with (snd (p, i)). now apply in_map. }
      destruct (IH k1 t2 k' s1 s' G1 ND') as (G' & (qs & F2) & Kp); auto.
      { intros p j Ij. destruct (H p j (or_intror Ij)) as (Ij' & Tj & dj & nj & ej & vj & Sj). splits; auto.
        exists dj, nj, ej, vj. apply (effect_stands w o ks d i (tree_of s) (tree_of s1)); auto. left. exact (Oth p j Ij). }
      splits; auto.
      + exists (q :: qs). constructor.
        * cbn [fst snd]. split; [destruct Q; auto using in_or_app|]. apply Kp; auto.
        * clear - F2. induction F2 as [|[p j] q' l l' [X Y] F2 IHF]; constructor; auto. split; [destruct X; auto using in_or_app|exact Y].
      + intros q0 j Ij Nj Kj. apply Kp; [exact Ij|intros X; apply Nj; now right|].
        apply (settled_kept w o Se Rc names ks (tree_of s) (tree_of s1) f i dir n d via); auto. intros ->. apply Nj. now left.
  Qed.
End argument.

Lemma run_several w fuel o args ign s tr s' ign' :
  all_searchable w -> settles o -> respects_case w o -> o_dry_run o = false -> usable_list ign ->
  wf_tree w (tree_of s) -> no_loops w (tree_of s) -> well_named (tree_of s) -> separate w o (tree_of s) args ->
  runs (steady_step w) alone (process_arguments fuel o (map fst args) ign) s tr s' (Ret ign') -> Forall (unhindered w) tr ->
  good w (tree_of s') /\
  exists qs, Forall2 (fun pi q => (q = fst pi \/ In (Ev (Rename (fst pi) q) None) tr) /\ settled w o (items ign) (tree_of s') q (snd pi)) args qs.
Proof.
  intros AS Se Rc Dry U W NL WN [ND Sp] R Un.
  assert (St : state_of (items ign) (cursor ign) ign) by (split; [now apply usable_good|auto]).
  pose proof (runs_trace _ _ _ _ _ _ _ R) as T. apply runs_steps in R.
  destruct (arguments_forward _ _ _ _ _ _ _ _ St T) as (k & _ & A).
  assert (H : forall p i, In (p, i) args -> In i (map snd args) /\ treated w o i /\ stands w (tree_of s) (map snd args) p i).
  { intros p i I. destruct (Sp p i I). splits; auto. change i with (snd (p, i)). now apply in_map. }
  destruct (arguments_more w o (items ign) AS Se Rc Dry (map snd args) args _ _ _ s s' (conj W (conj NL WN)) ND H A R Un) as (G & (qs & F2) & _).
  split; auto. exists qs. clear - F2. induction F2 as [|[p j] q' l l' [X [_ Y]] F2 IHF]; constructor; auto.
Qed.

(** ** Once more *)

Lemma arguments_idle w o names t fs : all_searchable w -> settles o -> good w t -> forall k tr k' s s',
  tree_of s = t -> (forall q, In q fs -> orderly w o t q /\ forall new, ~ would_rename w o t q new) ->
  arguments_done o names k fs tr k' -> steps w s tr s' -> tree_of s' = t /\ no_rename tr.
Proof.
  intros AS Se G. induction fs as [|f fs IH]; intros k tr k' s s' T H AD St.
  - inversion AD; subst. cbn [steps] in St. subst s'. split; auto. apply no_rename_nil.
  - inversion AD as [|k0 f0 fs0 t1 k1 t2 k2 A1 A2]; subst. apply steps_app in St. destruct St as (s1 & S1 & S2).
    destruct (H f (or_introl eq_refl)) as (Or & WR).
    destruct (argument_idle w o names (tree_of s) AS Se G _ _ _ _ s s1 eq_refl Or WR A1 S1) as ([T1 _] & N1).
    destruct (IH k1 t2 k' s1 s' T1) as (T2 & N2); auto; [intros q I; apply H; now right|].
    split; auto. now apply no_rename_app.
Qed.

Lemma run_several_idle w fuel o fs ign s tr s' ign' :
  all_searchable w -> settles o -> usable_list ign -> good w (tree_of s) ->
  (forall q, In q fs -> orderly w o (tree_of s) q /\ forall new, ~ would_rename w o (tree_of s) q new) ->
  runs (steady_step w) alone (process_arguments fuel o fs ign) s tr s' (Ret ign') ->
  tree_of s' = tree_of s /\ no_rename tr.
Proof.
  intros AS Se U G H R. assert (St : state_of (items ign) (cursor ign) ign) by (split; [now apply usable_good|auto]).
  pose proof (runs_trace _ _ _ _ _ _ _ R) as T. apply runs_steps in R.
  destruct (arguments_forward _ _ _ _ _ _ _ _ St T) as (k & _ & A). eapply arguments_idle; eauto.
Qed.

Lemma run_several_again w fuel1 fuel2 o args ign1 ign2 s tr1 s1 r1 :
  all_searchable w -> settles o -> respects_case w o -> o_dry_run o = false -> usable_list ign1 ->
  wf_tree w (tree_of s) -> no_loops w (tree_of s) -> well_named (tree_of s) -> separate w o (tree_of s) args ->
  runs (steady_step w) alone (process_arguments fuel1 o (map fst args) ign1) s tr1 s1 (Ret r1) -> Forall (unhindered w) tr1 ->
  (forall i l, In i (map snd args) -> In l (links (tree_of s1)) -> below (tree_of s1) i (l_dir l) -> ~ In (l_name l) (items ign1)) ->
  exists qs, Forall2 (fun pi q => q = fst pi \/ In (Ev (Rename (fst pi) q) None) tr1) args qs /\
    forall fs s2 tr2 s3 r2, incl fs qs -> tree_of s2 = tree_of s1 -> usable_list ign2 ->
      runs (steady_step w) alone (process_arguments fuel2 o fs ign2) s2 tr2 s3 (Ret r2) ->
      tree_of s3 = tree_of s2 /\ no_rename tr2.
Proof.
  intros AS Se Rc Dry U W NL WN Sp R Un No.
  destruct (run_several _ _ _ _ _ _ _ _ _ AS Se Rc Dry U W NL WN Sp R Un) as (G & qs & F2).
  exists qs. split; [clear - F2; induction F2 as [|[p j] q' l l' [X Y] F2 IHF]; constructor; auto|].
  intros fs s2 tr2 s3 r2 Inc T U2 R2. rewrite <- T in *. eapply run_several_idle; eauto.
  intros q Iq. apply Inc in Iq.
  assert (X : exists p i, In (p, i) args /\ settled w o (items ign1) (tree_of s2) q i).
  { clear - F2 Iq. induction F2 as [|[p j] q' l l' [X Y] F2 IHF]; [destruct Iq|]. destruct Iq as [->|Iq].
    - exists p, j. split; [now left|exact Y].
    - destruct (IHF Iq) as (p' & i & I & H). exists p', i. split; [now right|exact H]. }
  destruct X as (p & i & Ip & Lq & WR & A). split; auto. intros j Lj Kj. assert (j = i) by congruence. subst j.
  eapply no_listed; eauto. intros l Il Bl. apply (No i l); auto. change i with (snd (p, i)). now apply in_map.
Qed.

Lemma run_several_plain w fuel o args ign s tr s' ign' :
  all_searchable w -> settles o -> respects_case w o -> o_dry_run o = false -> usable_list ign ->
  wf_tree w (tree_of s) -> no_loops w (tree_of s) -> well_named (tree_of s) -> separate w o (tree_of s) args ->
  runs (steady_step w) alone (process_arguments fuel o (map fst args) ign) s tr s' (Ret ign') -> Forall (unhindered w) tr ->
  exists qs, Forall2 (fun arg q => (q = fst arg \/ In (Ev (Rename (fst arg) q) None) tr) /\ settled w o (items ign) (tree_of s') q (snd arg)) args qs.
Proof. intros AS Se Rc Dry U W NL WN Sp R Un. exact (proj2 (run_several _ _ _ _ _ _ _ _ _ AS Se Rc Dry U W NL WN Sp R Un)). Qed.

Lemma run_several_idle_plain w fuel o fs ign s tr s' ign' :
  all_searchable w -> settles o -> usable_list ign ->
  wf_tree w (tree_of s) -> no_loops w (tree_of s) -> well_named (tree_of s) ->
  (forall q, In q fs -> (forall new, ~ would_rename w o (tree_of s) q new) /\
     forall i, lstat_inode w (tree_of s) q = Some i -> kind_of w i = KDir -> all_in_order w o [] (tree_of s) i) ->
  runs (steady_step w) alone (process_arguments fuel o fs ign) s tr s' (Ret ign') ->
  tree_of s' = tree_of s /\ no_rename tr.
Proof.
  intros AS Se U W NL WN H R. eapply run_several_idle; eauto; [exact (conj W (conj NL WN))|].
  intros q I. destruct (H q I). split; auto.
Qed.
