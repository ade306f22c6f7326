(** * A tree in order is left as it is *)

From Verif Require Import Base BaseFacts CleanSpec Filter Filelist Prog ProgFacts File FS FSProofs FileSpec FileProofs FileProofs2
  RunSpec RunProofs RunProofs3 TidySpec TidyProofs TidyProofs2 TidyProofs3 TidyProofs4.

Local Open Scope nat_scope.

Lemma no_rename_app a b : no_rename a -> no_rename b -> no_rename (a ++ b).
Proof. intros A B old new I. apply in_app_or in I. destruct I as [I|I]; [now apply (A old new)|now apply (B old new)]. Qed.

Lemma no_rename_cons e a : (forall old new, e <> Ev (Rename old new) None) -> no_rename a -> no_rename (e :: a).
Proof. intros E A old new [I|I]; [now apply (E old new)|now apply (A old new)]. Qed.

Lemma no_rename_nil : no_rename [].
Proof. intros old new []. Qed.

Lemma failed_rename old new m a b : Ev (Rename old new) (Some m) <> Ev (Rename a b) None.
Proof.
  intros E. apply (f_equal (fun e => match e with
    Ev c r => match c return answer c -> bool with
              | Rename _ _ => fun r => match r with None => false | Some _ => true end
              | _ => fun _ => false
              end r end)) in E. discriminate.
Qed.

(** The streams that were open belong to the same directories. *)
Definition stay_open (s s' : state) : Prop :=
  forall h x due, stream_of s h = Some (x, due) -> exists due', stream_of s' h = Some (x, due').

Definition idle (s s' : state) : Prop := tree_of s' = tree_of s /\ stay_open s s'.

Lemma idle_same s s' : same s s' -> idle s s'.
Proof. intros [T U]. split; auto. intros h x due E. exists due. now rewrite U. Qed.

Lemma idle_trans a b c : idle a b -> idle b c -> idle a c.
Proof.
  intros [T1 S1] [T2 S2]. split; [congruence|]. intros h x due E. destruct (S1 h x due E) as (d1 & E1). now apply (S2 h x d1).
Qed.

(** Nothing to be renamed, nothing renamed. *)
Lemma commented_no_rename o p ws : commented o p ws -> no_rename ws.
Proof.
  intros H. destruct H as [|dir base _ _ _]; [apply no_rename_nil|].
  induction (remarks o base) as [|[out text] l IH]; [apply no_rename_nil|]. apply no_rename_cons; [discriminate|exact IH].
Qed.

Lemma handled_idle w o s tr s' P q :
  (forall new t', would_rename w o (tree_of s) P new -> ~ rename_ok w (tree_of s) P new t') ->
  file_handled o P tr q -> steps w s tr s' -> q = P /\ idle s s' /\ no_rename tr.
Proof.
  intros NR FD St.
  inversion FD as [LA|new ms PR|new a b PR IW|new a r PR WF Dr|new a r PR WF Dr|new a r ms PR WF Dr]; subst.
  - cbn [steps] in St. subst s'. splits; auto using no_rename_nil, idle_same, same_refl.
  - cbn [steps] in St. destruct St as (s1 & S1 & ->). apply lstat_step in S1.
    splits; auto; [now apply idle_same|]. apply no_rename_cons; [discriminate|apply no_rename_nil].
  - cbn [steps] in St. destruct St as (s1 & S1 & s2 & S2 & s3 & S3 & ->). apply lstat_step in S1, S2. apply print_step in S3.
    splits; auto; [apply idle_same; eapply same_trans; [apply S1|]; eapply same_trans; [apply S2|exact S3]|].
    repeat (apply no_rename_cons; [discriminate|]). apply no_rename_nil.
  - cbn [steps] in St. destruct St as (s1 & S1 & s2 & S2 & s3 & S3 & ->). apply lstat_step in S1, S2. apply print_step in S3.
    splits; auto; [apply idle_same; eapply same_trans; [apply S1|]; eapply same_trans; [apply S2|exact S3]|].
    repeat (apply no_rename_cons; [discriminate|]). apply no_rename_nil.
  - exfalso. cbn [app steps] in St. destruct St as (s1 & S1 & s2 & S2 & St). apply lstat_step in S1, S2.
    destruct S1 as [V1 S1], S2 as [V2 S2]. rewrite (proj1 V1) in S2.
    apply steps_app in St. destruct St as (s3 & S3 & St). cbn [steps] in St. destruct St as (s4 & S4 & St). subst s4.
    assert (V : same s s3).
    { eapply same_trans; [exact V1|]. eapply same_trans; [exact V2|]. unfold announcement_of in S3.
      destruct (0 <? o_verbose o)%N; cbn [steps] in S3.
      - destruct S3 as (s5 & S3 & ->). now apply print_step in S3.
      - subst s3. apply same_refl. }
    destruct S4 as [R4 _]. rewrite (proj1 V) in R4. cbn in R4. refine (NR _ _ _ R4).
    destruct (lstat_inode w (tree_of s) P) as [i|] eqn:Ls; [|destruct S1; discriminate]. injection S1 as ->.
    split; auto. exists i. split; auto.
    destruct (lstat_inode w (tree_of s) q) as [j|] eqn:Lj; [|auto]. subst r. cbn in WF. right.
    rewrite in_the_way_iff in WF. destruct (inode_eqb j i) eqn:Ji.
    + apply inode_eqb_eq in Ji. subst j. split; auto. apply N.nlt_ge. intros X. apply WF. now right.
    + apply inode_eqb_neq in Ji. exfalso. apply WF. now left.
  - cbn [app steps] in St. destruct St as (s1 & S1 & s2 & S2 & St). apply lstat_step in S1, S2.
    apply steps_app in St. destruct St as (s3 & S3 & St). cbn [steps] in St. destruct St as (s4 & S4 & s5 & S5 & ->). apply print_step in S5.
    splits; auto.
    + apply idle_same. eapply same_trans; [apply S1|]. eapply same_trans; [apply S2|].
      apply (same_trans s2 s3); [|apply (same_trans s3 s4); [|exact S5]].
      * unfold announcement_of in S3. destruct (0 <? o_verbose o)%N; cbn [steps] in S3.
        -- destruct S3 as (s6 & S3 & ->). now apply print_step in S3.
        -- subst s3. apply same_refl.
      * destruct S4 as [S4 U4]. now split.
    + repeat (apply no_rename_cons; [discriminate|]). apply no_rename_app.
      * unfold announcement_of. destruct (0 <? o_verbose o)%N; [|apply no_rename_nil]. apply no_rename_cons; [discriminate|apply no_rename_nil].
      * apply no_rename_cons; [intros; apply failed_rename|]. apply no_rename_cons; [discriminate|apply no_rename_nil].
Qed.

Lemma file_idle w o s tr s' P q :
  (forall new t', would_rename w o (tree_of s) P new -> ~ rename_ok w (tree_of s) P new t') ->
  file_done o P tr q -> steps w s tr s' -> q = P /\ idle s s' /\ no_rename tr.
Proof.
  intros NR FD St. destruct FD as [ws tr q Cm FH]. apply steps_app in St. destruct St as (s1 & S1 & St).
  pose proof (commented_same _ _ _ _ Cm _ _ S1) as V. destruct (handled_idle w o s1 tr s' P q) as (E & Id & No); auto.
  { now rewrite (proj1 V). }
  splits; auto; [eapply idle_trans; [apply idle_same; exact V|exact Id]|].
  apply no_rename_app; auto. eapply commented_no_rename; eauto.
Qed.

Lemma at_rest_idle w o t P dir n i j via new t' :
  good w t -> settles o -> last_component P dir n -> file_name n -> n <> bs "." -> n <> bs ".." -> usable w P = true ->
  walk w t (max_symlinks w) (start_of w P) (components dir) = Some (i, via) -> is_dir w i = true -> searchable w i = true ->
  In (mkLink i n j) (links t) -> at_rest w o t (mkLink i n j) ->
  would_rename w o t P new -> ~ rename_ok w t P new t'.
Proof.
  intros G Se L FN D1 D2 U Wa K Sr I A WR R.
  assert (N : n <> []) by apply FN.
  destruct (found w t P dir n i n j via) as (Pl & Lk & Ls); auto; try apply G.
  assert (WR' := WR). destruct WR as [(dir' & b & c & L' & -> & _ & _ & _ & Nc & E) (i' & Li' & Fr)].
  destruct (last_component_fun _ _ _ _ _ L L') as [<- <-]. assert (i' = j) by congruence. subst i'.
  destruct (Se n c FN E) as [Sl _].
  destruct A as (c' & E' & A). cbn [l_name l_dir l_target] in *. unfold cleans_to in E'. rewrite E in E'. injection E' as <-.
  destruct A as [A|[A|(x & Lx & A)]]; [contradiction| |].
  - subst c. rewrite app_nil_r in *. exact (empty_not_renamed w o t P dir n t' (proj1 G) L N WR' R).
  - destruct (rename_retitles w o t P dir n i n j via c t') as (C0 & C1 & C2 & _); auto.
    assert (L2 : last_component (dir ++ c) dir c) by (destruct L as (_ & _ & D); split; [reflexivity|now split]).
    assert (U2 : usable w (dir ++ c) = true).
    { destruct R as (d1 & n1 & v1 & d2 & n2 & v2 & i2 & _ & P2 & _). unfold place in P2. now destruct (usable w (dir ++ c)). }
    rewrite (lstat_last w t _ dir c L2 C0), (place_last w t _ dir c L2 C0), U2, (start_agrees w _ P dir c n L2 L), Wa, Lx in Fr.
    destruct Fr as [Fr|[Fr Fr2]]; [discriminate|]. injection Fr as ->. destruct A as [A|A]; [contradiction|lia].
Qed.

(** What matters of a directory that is still to be walked through. *)
Definition orderly (w : world) (o : options_t) (t : tree) (q : str) : Prop :=
  forall i, lstat_inode w t q = Some i -> kind_of w i = KDir -> all_in_order w o [] t i.

Section again.
  Variables (w : world) (o : options_t) (names : list str) (t : tree).
  Hypothesis AS : all_searchable w.
  Hypothesis Se : settles o.
  Hypothesis G : good w t.

  Let dir_idle (k : nat) (q : str) (tr : list event) (k' : nat) (_ : directory_done o names k q tr k') : Prop :=
    forall s s', tree_of s = t -> orderly w o t q -> steps w s tr s' -> idle s s' /\ no_rename tr.

  Let entries_idle (p : str) (h : N) (st : stat) (k : nat) (tr : list event) (k' : nat) (_ : entries_done o names p h st k tr k') : Prop :=
    forall s s' i via due, tree_of s = t -> lstat_inode w t p = Some i -> kind_of w i = KDir ->
      walk w t (max_symlinks w) (start_of w p) (components p) = Some (i, via) -> all_in_order w o [] t i ->
      stream_of s h = Some (i, due) -> steps w s tr s' -> idle s s' /\ no_rename tr.

  Let entry_idle (k : nat) (P : str) (st : stat) (tr : list event) (k' : nat) (_ : entry_done o names k P st tr k') : Prop :=
    forall s s' dir n i j via, tree_of s = t -> last_component P dir n -> kind_of w i = KDir -> ~ hidden n ->
      In (mkLink i n j) (links t) -> (usable w P = true -> st = stat_of w t j) ->
      walk w t (max_symlinks w) (start_of w P) (components dir) = Some (i, via) -> all_in_order w o [] t i ->
      steps w s tr s' -> idle s s' /\ no_rename tr.

  Lemma entry_lstat P dir n i j via :
    last_component P dir n -> kind_of w i = KDir -> In (mkLink i n j) (links t) ->
    walk w t (max_symlinks w) (start_of w P) (components dir) = Some (i, via) ->
    lstat_inode w t P = if usable w P then Some j else None.
  Proof.
    intros L K I Wa. destruct (proj2 (proj2 G) _ I) as (FN & D1 & D2). cbn in FN, D1, D2.
    assert (Kd : is_dir w i = true) by (unfold is_dir; now rewrite K).
    destruct (usable w P) eqn:U; [|unfold lstat_inode; now rewrite U].
    destruct (found w t P dir n i n j via) as (_ & _ & Ls); auto; [apply G|apply FN].
  Qed.

  (** The entry itself. *)
  Lemma entry_file_idle P st tr q s s' dir n i j via :
    st_kind st <> SOther \/ o_special o = true ->
    tree_of s = t -> last_component P dir n -> kind_of w i = KDir -> ~ hidden n ->
    In (mkLink i n j) (links t) -> (usable w P = true -> st = stat_of w t j) ->
    walk w t (max_symlinks w) (start_of w P) (components dir) = Some (i, via) -> all_in_order w o [] t i ->
    file_done o P tr q -> steps w s tr s' -> q = P /\ idle s s' /\ no_rename tr.
  Proof.
    intros Kind T L K Nh I E Wa A FD St. apply (file_idle w o s tr s' P q); auto. rewrite T.
    destruct (proj2 (proj2 G) _ I) as (FN & D1 & D2). cbn in FN, D1, D2.
    assert (Kd : is_dir w i = true) by (unfold is_dir; now rewrite K).
    intros new t' WR. assert (U : usable w P = true).
    { destruct WR as [_ (x & Lx & _)]. rewrite (entry_lstat P dir n i j via) in Lx; auto. now destruct (usable w P). }
    assert (AR : at_rest w o t (mkLink i n j)).
    { destruct (A _ I) as [[H|[]]|[(H1 & H2 & H3)|H]]; auto; [constructor|contradiction|]. exfalso. cbn in H1, H2.
      rewrite (E U) in Kind. unfold stat_of in Kind. cbn in Kind. destruct (kind_of w j); destruct Kind; congruence. }
    eapply at_rest_idle; eauto.
  Qed.

  Lemma walk_idle :
    (forall k q tr k' H, dir_idle k q tr k' H) /\
    (forall p h st k tr k' H, entries_idle p h st k tr k' H) /\
    (forall k P st tr k' H, entry_idle k P st tr k' H).
  Proof.
    apply walk_done_ind; unfold dir_idle, entries_idle, entry_idle; clear dir_idle entries_idle entry_idle.
    - intros k p m s s' T Or St. cbn [steps] in St. destruct St as (s1 & S1 & ->). apply lstat_step in S1.
      split; [now apply idle_same|]. apply no_rename_cons; [discriminate|apply no_rename_nil].
    - intros k p st N s s' T Or St. cbn [steps] in St. destruct St as (s1 & S1 & ->). apply lstat_step in S1.
      split; [now apply idle_same|]. apply no_rename_cons; [discriminate|apply no_rename_nil].
    - intros k p st m E s s' T Or St. cbn [steps] in St. destruct St as (s1 & S1 & s2 & S2 & s3 & S3 & ->).
      apply lstat_step in S1. apply print_step in S3. destruct S2 as [[T2 _] S2]. split.
      + apply idle_same. eapply same_trans; [apply S1|]. eapply same_trans; [|exact S3]. now split.
      + repeat (apply no_rename_cons; [discriminate|]). apply no_rename_nil.
    - intros k p st h tr k' E En IH s s' T Or St.
      cbn [steps] in St. destruct St as (s1 & S1 & s2 & S2 & St). apply lstat_step in S1. destruct S1 as [[T1 V1] S1].
      apply steps_app in St. destruct St as (s3 & S3 & St). cbn [steps] in St. destruct St as (s4 & S4 & St). subst s4.
      rewrite T in *. destruct (lstat_inode w t p) as [i|] eqn:Ls; [|destruct S1; discriminate]. injection S1 as ->.
      apply kind_stat in E. assert (Kd : is_dir w i = true) by (unfold is_dir; now rewrite E).
      destruct (lstat_walk w t p i Ls Kd) as (via & Wa).
      destruct S2 as [[T2 _] (i' & via' & Wa' & Fresh & Now)]. rewrite T1 in *. rewrite Wa in Wa'. injection Wa' as <- <-.
      destruct (IH s2 s3 i via (names_in t i)) as ([T3 O3] & N3); auto; [now apply Now|].
      destruct S4 as [T4 N4]. cbn in T4, N4. split.
      + split; [congruence|]. intros g x due Eg.
        assert (Gh : g <> h) by (intros ->; rewrite <- V1, Fresh in Eg; discriminate).
        rewrite (proj2 N4 g Gh). apply (O3 g x due). rewrite (proj2 Now g Gh), V1. exact Eg.
      + repeat (apply no_rename_cons; [discriminate|]). apply no_rename_app; auto.
        apply no_rename_cons; [discriminate|apply no_rename_nil].
    - intros p h st k s s' i via due T Ls K Wa A Str St. cbn [steps] in St. destruct St as (s1 & S1 & ->).
      destruct S1 as [[T1 _] (i' & due' & Str' & E & V)]. split; [apply idle_same; now split|].
      apply no_rename_cons; [discriminate|apply no_rename_nil].
    - intros p h st k n k1 tr k' Ch En IH s s' i via due T Ls K Wa A Str St.
      cbn [steps] in St. destruct St as (s1 & S1 & St).
      destruct S1 as [[T1 _] (i' & due' & Str' & _ & Now)]. rewrite Str in Str'. injection Str' as <- <-. rewrite T in T1.
      destruct (IH s1 s' i via (filter (fun m => negb (str_eqb m n)) due)) as (Id & Nr); auto; [apply Now|].
      split; [|apply no_rename_cons; [discriminate|exact Nr]]. eapply idle_trans; [|exact Id]. split; [congruence|].
      intros g x d X. destruct (N.eq_dec g h) as [->|Gh].
      + rewrite Str in X. injection X as <- <-. eexists. apply Now.
      + exists d. now rewrite (proj2 Now g Gh).
    - intros p h st k n k1 r t1 k2 t2 k' Ch En1 IH1 En2 IH2 s s' i via due T Ls K Wa A Str St.
      cbn [steps] in St. destruct St as (s1 & S1 & s2 & S2 & St). apply steps_app in St. destruct St as (s3 & S3 & St).
      destruct S1 as [[T1 FN] (i' & due' & Str' & Na & Now)]. cbn in FN. rewrite Str in Str'. injection Str' as <- <-.
      assert (Nh : ~ hidden n) by (inversion Ch; assumption).
      rewrite T in *. assert (Nn : In n (names_in t i)).
      { destruct Na as [->|[->|Na]]; auto; exfalso; apply Nh; eexists; reflexivity. }
      apply names_in_iff in Nn. destruct Nn as (j & Ij).
      rewrite (path_of_entry_whole p n FN) in *.
      assert (Lc := entry_component p n FN).
      assert (Wd : walk w t (max_symlinks w) (start_of w (p ++ bs "/" ++ n)) (components (p ++ bs "/")) = Some (i, via)).
      { assert (Pn : p <> []) by (intros ->; unfold lstat_inode in Ls; rewrite andb_false_r in Ls; discriminate).
        now rewrite components_slash, start_prefix. }
      apply lstat_step in S2. destruct S2 as [[T2 V2] S2]. rewrite T1 in *.
      rewrite (entry_lstat _ _ n i j via Lc K Ij Wd) in S2.
      destruct (IH1 s2 s3 (p ++ bs "/") n i j via) as ([T3 O3] & N1); auto.
      { intros U. rewrite U in S2. now subst r. }
      destruct (O3 h i (filter (fun m => negb (str_eqb m n)) due)) as (due3 & Str3); [rewrite V2; apply Now|].
      destruct (IH2 s3 s' i via due3) as (Id & N2); auto; [congruence|].
      split.
      + eapply idle_trans; [|exact Id]. eapply idle_trans; [|split; [|exact O3]; congruence]. split; [congruence|].
        intros g x d X. rewrite V2. destruct (N.eq_dec g h) as [->|Gh].
        * rewrite Str in X. injection X as <- <-. eexists. apply Now.
        * exists d. now rewrite (proj2 Now g Gh).
      + repeat (apply no_rename_cons; [discriminate|]). now apply no_rename_app.
    - intros k P st tr q Kind FD s s' dir n i j via T L K Nh I E Wa A St.
      apply (entry_file_idle P st tr q s s' dir n i j via); auto. destruct Kind as [Kind|[_ Kind]]; auto. left. congruence.
    - intros k P st Kind Sp s s' dir n i j via T L K Nh I E Wa A St. cbn [steps] in St. subst s'.
      split; [apply idle_same, same_refl|apply no_rename_nil].
    - intros k P st tr q Kind Rec FD s s' dir n i j via T L K Nh I E Wa A St.
      apply (entry_file_idle P st tr q s s' dir n i j via); auto. left. congruence.
    - intros k P st t1 q t2 k' Kind Rec FD Dd IH s s' dir n i j via T L K Nh I E Wa A St.
      apply steps_app in St. destruct St as (s1 & S1 & S2).
      destruct (entry_file_idle P st t1 q s s1 dir n i j via) as (-> & Id1 & N1); auto; [left; congruence|].
      destruct (IH s1 s') as (Id2 & N2); auto; [destruct Id1; congruence| |].
      + intros x Lx Kx. rewrite (entry_lstat P dir n i j via) in Lx; auto. destruct (usable w P); [|discriminate]. injection Lx as <-.
        intros l Il En. apply A; auto.
        assert (Ej : entered w o [] t i j).
        { apply (entered_next w o [] t i (mkLink i n j)); auto; [constructor|]. intros [H|[]]. contradiction. }
        clear -Ej En. induction En as [|l' En IH Il R Kl Np]; auto. now apply (entered_next w o [] t i l').
      + split; [eapply idle_trans; eauto|now apply no_rename_app].
  Qed.

  (** An argument. *)
  Lemma argument_idle k f tr k' s s' :
    tree_of s = t -> orderly w o t f -> (forall new, ~ would_rename w o t f new) ->
    argument_done o names k f tr k' -> steps w s tr s' -> idle s s' /\ no_rename tr.
  Proof.
    intros T Or WR AD St.
    assert (Sc : forall s1, steps w s (scanning o f) s1 -> same s s1 /\ no_rename (scanning o f)).
    { intros s1 H. unfold scanning in *. destruct (0 <? o_verbose o)%N; cbn [steps] in H.
      - destruct H as (s2 & H & ->). apply print_step in H. split; auto. apply no_rename_cons; [discriminate|apply no_rename_nil].
      - subst s1. split; [apply same_refl|apply no_rename_nil]. }
    assert (Fi : forall a tr' q b, tree_of a = t -> file_done o f tr' q -> steps w a tr' b -> q = f /\ idle a b /\ no_rename tr').
    { intros a tr' q b Ta FD Sa. apply (file_idle w o a tr' b f q); auto. rewrite Ta. intros new t' X. exfalso. now apply (WR new). }
    destruct AD as [m|st t1 q Kind FD|st Kind Sp|st t1 q t2 k' Kind FD DD];
      apply steps_app in St; destruct St as (s1 & S1 & St); apply Sc in S1; destruct S1 as [V1 N1];
      cbn [steps] in St; destruct St as (s2 & S2 & St); apply lstat_step in S2; destruct S2 as [V2 _];
      assert (V := same_trans _ _ _ V1 V2).
    - destruct St as (s3 & S3 & ->). apply print_step in S3. split; [apply idle_same; eapply same_trans; eauto|].
      apply no_rename_app; auto. repeat (apply no_rename_cons; [discriminate|]). apply no_rename_nil.
    - destruct (Fi s2 t1 q s') as (_ & Id & N2); auto; [destruct V; congruence|].
      split; [eapply idle_trans; [apply idle_same; exact V|exact Id]|].
      apply no_rename_app; auto. apply no_rename_cons; [discriminate|auto].
    - cbn [steps] in St. subst s'. split; [now apply idle_same|].
      apply no_rename_app; auto. apply no_rename_cons; [discriminate|apply no_rename_nil].
    - apply steps_app in St. destruct St as (s3 & S3 & S4).
      destruct (Fi s2 t1 q s3) as (-> & Id & N2); auto; [destruct V; congruence|].
      destruct (proj1 walk_idle _ _ _ _ DD s3 s') as (Id2 & N3); auto; [destruct V, Id; congruence|].
      split; [eapply idle_trans; [apply idle_same; exact V|eapply idle_trans; eauto]|].
      apply no_rename_app; auto. apply no_rename_cons; [discriminate|]. now apply no_rename_app.
  Qed.
End again.

(** Without listed names below the directory the list makes no difference. *)
Lemma no_listed w o names t i : good w t ->
  (forall l, In l (links t) -> below t i (l_dir l) -> ~ In (l_name l) names) ->
  all_in_order w o names t i -> all_in_order w o [] t i.
Proof.
  intros G N A l Il En.
  assert (E : entered w o names t i (l_dir l)).
  { clear Il. revert En. generalize (l_dir l). clear l. intros x En. induction En as [|l En IH Il R Kl Np]; [constructor|].
    apply entered_next; auto. intros [H|H]; [apply Np; now left|]. apply (N l Il); auto. now apply (entered_below w o names t i). }
  destruct (A l Il E) as [[H|H]|H]; [left; now left| |right; assumption].
  exfalso. apply (N l Il); auto. now apply (entered_below w o names t i).
Qed.
