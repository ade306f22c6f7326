(** * What a dry run announces: proofs *)

From Verif Require Import Base BaseFacts CleanSpec Filter Filelist Prog ProgFacts Warnings WarningsProofs File FS FSProofs FileSpec FilelistProofs FileProofs FileProofs2
  RunSpec RunProofs RunProofs2 RunProofs3 TidySpec TidyProofs TidyProofs2 TidyProofs3 TidyProofs4 TidyProofs5 DrySpec.

Local Open Scope nat_scope.

(** ** Texts *)

Lemma printed_nil text : printed [] text <-> False.
Proof. reflexivity. Qed.

Lemma printed_app a b text : printed (a ++ b) text <-> printed a text \/ printed b text.
Proof. apply in_app_iff. Qed.

Lemma printed_other e tr text : (forall x, e <> Ev (Print Stdout x) tt) -> printed (e :: tr) text <-> printed tr text.
Proof. intros N. split; [intros [E|I]; auto; elim (N _ E)|now right]. Qed.

Lemma printed_this x tr text : printed (Ev (Print Stdout x) tt :: tr) text <-> text = x \/ printed tr text.
Proof.
  split; intros [E|I]; auto; [|subst; now left|now right]. left.
  apply (f_equal (fun e => match e with Ev (Print _ y) _ => y | _ => [] end)) in E. auto.
Qed.

Lemma commented_silent o p ws text : commented o p ws -> ~ printed ws text.
Proof.
  intros H. destruct H as [|dir base _ _ _]; [intros []|]. intros X. apply in_map_iff in X. destruct X as ([out x] & E & I).
  pose proof (sequence_stderr (o_platform o) (o_sequence_to_use o) (Some base)) as St. unfold on_stderr in St. rewrite Forall_forall in St.
  specialize (St _ I). simpl in St. subst out. discriminate E.
Qed.

(** ** States *)

Definition kept (s s' : state) : Prop :=
  tree_of s' = tree_of s /\ forall h v, stream_of s h = Some v -> stream_of s' h = Some v.

Lemma kept_same s s' : same s s' -> kept s s'.
Proof. intros [T U]. split; auto. intros h v E. now rewrite U. Qed.

Lemma kept_trans a b c : kept a b -> kept b c -> kept a c.
Proof. intros [T1 S1] [T2 S2]. split; [congruence|]. auto. Qed.

Section dry.
  Variables (w : world) (o : options_t) (names : list str) (t : tree).
  Hypothesis AS : all_searchable w.
  Hypothesis G : good w t.
  Hypothesis Unlisted : forall l, In l (links t) -> ~ In (l_name l) names.

  (** What a dry run prints *)
  Definition said (tr : list event) (text : str) : Prop := o_dry_run o = true /\ printed tr text.

  Lemma said_nil text : said [] text <-> False.
  Proof. unfold said. rewrite printed_nil. tauto. Qed.

  Lemma said_app a b text : said (a ++ b) text <-> said a text \/ said b text.
  Proof. unfold said. rewrite printed_app. tauto. Qed.

  Lemma said_other e tr text : (forall x, e <> Ev (Print Stdout x) tt) -> said (e :: tr) text <-> said tr text.
  Proof. intros N. unfold said. now rewrite printed_other. Qed.

  (** No rename fails, and none succeeds. *)
  Definition calm (tr : list event) : Prop := Forall (unhindered w) tr /\ no_rename tr.

  Lemma calm_app a b : calm (a ++ b) -> calm a /\ calm b.
  Proof.
    intros [U N]. apply Forall_app in U. destruct U as [Ua Ub]. repeat split; auto; intros x y I; apply (N x y), in_app_iff; auto.
  Qed.

  Lemma calm_cons e a : calm (e :: a) -> unhindered w e /\ calm a.
  Proof. intros [U N]. inversion U; subst. repeat split; auto. intros x y I. apply (N x y). now right. Qed.

  Lemma file_says s tr s' P q : tree_of s = t -> file_done o P tr q -> steps w s tr s' -> calm tr ->
    q = P /\ same s s' /\ forall text, said tr text <-> exists new, would_rename w o t P new /\ text = arrow P new.
  Proof.
    intros T FD St Ca. destruct FD as [ws tr q Cm FH]. apply calm_app in Ca. destruct Ca as [_ Ca]. apply steps_app in St. destruct St as (s1 & S1 & St).
    pose proof (commented_same _ _ _ _ Cm _ _ S1) as V. assert (T1 : tree_of s1 = t) by (rewrite (proj1 V); exact T).
    assert (H : q = P /\ same s1 s' /\ forall text, said tr text <-> exists new, would_rename w o t P new /\ text = arrow P new).
    { clear S1 V Cm ws s T.
      inversion FH as [LA|new ms PR|new a b PR IW|new a r PR WF Dr|new a r PR WF Dr|new a r ms PR WF Dr]; subst.
      - cbn [steps] in St. subst s'. splits; auto using same_refl. intros text. rewrite said_nil. split; [intros []|].
        intros (new & [(dir & base & cl & L & _ & _ & D1 & D2 & Nc & E) _] & _). destruct LA as (dir' & base' & L' & LA).
        destruct (last_component_fun _ _ _ _ _ L L') as [<- <-]. destruct LA as [LA|[LA|LA]]; try contradiction. congruence.
      - cbn [steps] in St. destruct St as (s2 & S2 & ->). apply lstat_step in S2. destruct S2 as [V S2].
        splits; auto. intros text. rewrite said_other by discriminate. rewrite said_nil. split; [intros []|].
        intros (x & [_ (i & Li & _)] & _). rewrite Li in S2. discriminate.
      - cbn [steps] in St. destruct St as (s2 & S2 & s3 & S3 & s4 & S4 & ->). apply lstat_step in S2, S3. apply print_step in S4.
        destruct S2 as [V2 S2], S3 as [V3 S3]. splits; auto.
        { eapply same_trans; [exact V2|]. eapply same_trans; [exact V3|exact S4]. }
        intros text. rewrite !said_other by discriminate. rewrite said_nil. split; [intros []|].
        intros (x & [PR' (i & Li & Fr)] & _). rewrite <- (proper_rename_fun _ _ _ _ PR PR') in Fr. rewrite (proj1 V2) in S3.
        rewrite Li in S2. injection S2 as ->.
        destruct (lstat_inode w (tree_of s1) new) as [j|]; [|destruct S3; discriminate]. injection S3 as ->.
        apply in_the_way_iff in IW. destruct Fr as [Fr|[Fr Fr2]]; [discriminate|]. injection Fr as ->. destruct IW as [IW|IW]; [contradiction|lia].
      - cbn [steps] in St. destruct St as (s2 & S2 & s3 & S3 & s4 & S4 & ->). apply lstat_step in S2, S3. apply print_step in S4.
        destruct S2 as [V2 S2], S3 as [V3 S3]. splits; auto.
        { eapply same_trans; [exact V2|]. eapply same_trans; [exact V3|exact S4]. }
        rewrite (proj1 V2) in S3.
        assert (WR : would_rename w o (tree_of s1) q new).
        { destruct (lstat_inode w (tree_of s1) q) as [i|] eqn:Ls; [|destruct S2; discriminate]. injection S2 as ->.
          split; auto. exists i. split; auto.
          destruct (lstat_inode w (tree_of s1) new) as [j|] eqn:Lj; [|auto]. subst r. cbn in WF. right.
          rewrite in_the_way_iff in WF. destruct (inode_eqb j i) eqn:Ji.
          + apply inode_eqb_eq in Ji. subst j. split; auto. apply N.nlt_ge. intros X. apply WF. now right.
          + apply inode_eqb_neq in Ji. exfalso. apply WF. now left. }
        intros text. rewrite !said_other by discriminate. unfold announced, said. rewrite printed_this, printed_nil. split.
        + intros [_ [->|[]]]. exists new. auto.
        + intros (x & [PR' _] & ->). split; auto. left. now rewrite (proper_rename_fun _ _ _ _ PR PR').
      - exfalso. destruct Ca as [_ N]. apply (N P q). rewrite app_assoc. apply in_app_iff. right. now left.
      - exfalso. destruct Ca as [U _]. rewrite app_assoc in U. apply Forall_app in U. destruct U as [_ U]. inversion U as [|? ? X _]. discriminate X. }
    destruct H as (-> & V' & H). splits; auto; [eapply same_trans; eauto|]. intros text. rewrite said_app, H. split; auto.
    intros [X|X]; auto. elim (commented_silent _ _ _ _ Cm (proj2 X)).
  Qed.

  (** What a walk comes to by way of the entry [n] of [p] *)
  Definition from (p n : str) (j : inode) (P : str) : Prop :=
    P = p ++ bs "/" ++ n /\ dealt_with w o j \/
    kind_of w j = KDir /\ o_recurse o = true /\ inside w o t (p ++ bs "/" ++ n) P.

  Lemma inside_from p P : inside w o t p P <-> exists i n j, lstat_inode w t p = Some i /\ kind_of w i = KDir /\
    In (mkLink i n j) (links t) /\ ~ hidden n /\ from p n j P.
  Proof.
    split.
    - intros H. inversion H; subst; exists i, n, j; splits; auto; [left|right]; auto.
    - intros (i & n & j & L & K & I & Nh & [[-> D]|(Kj & R & H)]); [eapply inside_here|eapply inside_deeper]; eauto.
  Qed.

  Let dir_says (k : nat) (p : str) (tr : list event) (k' : nat) (_ : directory_done o names k p tr k') : Prop :=
    forall s s', tree_of s = t -> steps w s tr s' -> calm tr ->
      kept s s' /\ forall text, said tr text <-> exists P new, inside w o t p P /\ would_rename w o t P new /\ text = arrow P new.

  Let entries_say (p : str) (h : N) (st : stat) (k : nat) (tr : list event) (k' : nat) (_ : entries_done o names p h st k tr k') : Prop :=
    forall s s' i via due, tree_of s = t -> lstat_inode w t p = Some i -> kind_of w i = KDir ->
      walk w t (max_symlinks w) (start_of w p) (components p) = Some (i, via) ->
      stream_of s h = Some (i, due) -> steps w s tr s' -> calm tr ->
      tree_of s' = t /\ (forall g v, g <> h -> stream_of s g = Some v -> stream_of s' g = Some v) /\
      (forall text, said tr text -> exists P new, inside w o t p P /\ would_rename w o t P new /\ text = arrow P new) /\
      (forall n j P new, In n due -> In (mkLink i n j) (links t) -> ~ hidden n -> from p n j P -> would_rename w o t P new ->
         said tr (arrow P new)).

  Let entry_says (k : nat) (P : str) (st : stat) (tr : list event) (k' : nat) (_ : entry_done o names k P st tr k') : Prop :=
    forall s s' p n j, tree_of s = t -> P = p ++ bs "/" ++ n -> lstat_inode w t P = Some j -> st = stat_of w t j ->
      steps w s tr s' -> calm tr ->
      kept s s' /\ forall text, said tr text <-> exists Q new, from p n j Q /\ would_rename w o t Q new /\ text = arrow Q new.

  Lemma here p n j tr : dealt_with w o j -> ~ (kind_of w j = KDir /\ o_recurse o = true) ->
    (forall text, said tr text <-> exists new, would_rename w o t (p ++ bs "/" ++ n) new /\ text = arrow (p ++ bs "/" ++ n) new) ->
    forall text, said tr text <-> exists Q new, from p n j Q /\ would_rename w o t Q new /\ text = arrow Q new.
  Proof.
    intros D N H text. rewrite H. split.
    - intros (new & WR & ->). exists (p ++ bs "/" ++ n), new. splits; auto. left. auto.
    - intros (Q & new & [[-> _]|(K & R & _)] & WR & ->); [eauto|]. elim N. auto.
  Qed.

  Lemma walk_says :
    (forall k q tr k' H, dir_says k q tr k' H) /\
    (forall p h st k tr k' H, entries_say p h st k tr k' H) /\
    (forall k P st tr k' H, entry_says k P st tr k' H).
  Proof.
    apply walk_done_ind; unfold dir_says, entries_say, entry_says; clear dir_says entries_say entry_says.
    - intros k p m s s' T St Un. cbn [steps] in St. destruct St as (s1 & S1 & ->). apply lstat_step in S1. destruct S1 as [V S1].
      split; [now apply kept_same|]. intros text. rewrite said_other by discriminate. rewrite said_nil. split; [intros []|].
      intros (P & new & H & _). apply inside_from in H. destruct H as (i & n & j & L & _). rewrite T, L in S1. discriminate.
    - intros k p st N s s' T St Un. cbn [steps] in St. destruct St as (s1 & S1 & ->). apply lstat_step in S1. destruct S1 as [V S1].
      split; [now apply kept_same|]. intros text. rewrite said_other by discriminate. rewrite said_nil. split; [intros []|].
      intros (P & new & H & _). apply inside_from in H. destruct H as (i & n & j & L & K & _). rewrite T, L in S1. injection S1 as ->.
      elim N. now apply (kind_stat w t).
    - intros k p st m E s s' T St Un. exfalso. apply calm_cons in Un. destruct Un as [_ Un]. apply calm_cons in Un. destruct Un as [U _].
      destruct U as (h & U). discriminate.
    - intros k p st h tr k' E En IH s s' T St Un.
      cbn [steps] in St. destruct St as (s1 & S1 & s2 & S2 & St). apply lstat_step in S1. destruct S1 as [[T1 V1] S1].
      apply steps_app in St. destruct St as (s3 & S3 & St). cbn [steps] in St. destruct St as (s4 & S4 & St). subst s4.
      rewrite T in *. destruct (lstat_inode w t p) as [i|] eqn:Ls; [|destruct S1; discriminate]. injection S1 as ->.
      apply kind_stat in E. assert (Kd : is_dir w i = true) by (unfold is_dir; now rewrite E).
      destruct (lstat_walk w t p i Ls Kd) as (via & Wa).
      destruct S2 as [[T2 _] (i' & via' & Wa' & Fresh & Now)]. rewrite T1 in *. rewrite Wa in Wa'. injection Wa' as <- <-.
      apply calm_cons in Un. destruct Un as [_ Un]. apply calm_cons in Un. destruct Un as [_ Un]. apply calm_app in Un. destruct Un as [Un _].
      destruct (IH s2 s3 i via (names_in t i)) as (T3 & O3 & H1 & H2); auto; [now apply Now|].
      destruct S4 as [T4 N4]. cbn in T4, N4. split.
      + split; [congruence|]. intros g v Eg.
        assert (Gh : g <> h) by (intros ->; rewrite <- V1, Fresh in Eg; discriminate).
        rewrite (proj2 N4 g Gh). apply (O3 g v Gh). rewrite (proj2 Now g Gh), V1. exact Eg.
      + intros text. rewrite !said_other by discriminate. rewrite said_app, said_other, said_nil by discriminate. split.
        * intros [X|[]]. auto.
        * intros (P & new & H & WR & ->). left. apply inside_from in H. destruct H as (i' & n & j & L & K & I & Nh & Fr).
          rewrite Ls in L. injection L as <-. apply (H2 n j); auto. apply names_in_iff. eauto.
    - intros p h st k s s' i via due T Ls K Wa Str St Un. cbn [steps] in St. destruct St as (s1 & S1 & ->).
      destruct S1 as [[T1 _] (i' & due' & Str' & E & V)]. rewrite Str in Str'. injection Str' as <- <-. subst due. splits.
      + congruence.
      + intros g v Gh X. now rewrite V.
      + intros text X. rewrite said_other in X by discriminate. now apply said_nil in X.
      + intros n j P new [].
    - intros p h st k n k1 tr k' Ch En IH s s' i via due T Ls K Wa Str St Un.
      cbn [steps] in St. destruct St as (s1 & S1 & St).
      destruct S1 as [[T1 _] (i' & due' & Str' & Na & Now)]. rewrite Str in Str'. injection Str' as <- <-. rewrite T in T1, Na.
      assert (Hd : hidden n).
      { inversion Ch as [H|x Nh Le Nt _|]; auto. destruct Na as [->|[->|Na]]; [now eexists|now eexists|].
        apply names_in_iff in Na. destruct Na as (j & I). elim (Unlisted _ I). cbn. eapply nth_error_In; eauto. }
      apply calm_cons in Un. destruct Un as [_ Un].
      destruct (IH s1 s' i via (filter (fun m => negb (str_eqb m n)) due)) as (T2 & O2 & H1 & H2); auto; [apply Now|]. splits; auto.
      + intros g v Gh X. apply O2; auto. now rewrite (proj2 Now g Gh).
      + intros text X. rewrite said_other in X by discriminate. auto.
      + intros m j P new Im I Nh Fr WR. rewrite said_other by discriminate. apply (H2 m j); auto.
        apply filter_In. split; auto. apply negb_true_iff, str_eqb_neq. congruence.
    - intros p h st k n k1 r t1 k2 t2 k' Ch En1 IH1 En2 IH2 s s' i via due T Ls K Wa Str St Un.
      cbn [steps] in St. destruct St as (s1 & S1 & s2 & S2 & St). apply steps_app in St. destruct St as (s3 & S3 & St).
      destruct S1 as [[T1 FN] (i' & due' & Str' & Na & Now)]. cbn in FN. rewrite Str in Str'. injection Str' as <- <-.
      assert (Nh : ~ hidden n) by (inversion Ch; assumption).
      rewrite T in *. assert (Nn : In n (names_in t i)).
      { destruct Na as [->|[->|Na]]; auto; exfalso; apply Nh; eexists; reflexivity. }
      apply names_in_iff in Nn. destruct Nn as (j & Ij).
      rewrite (path_of_entry_whole p n FN) in *.
      assert (Lc := entry_component p n FN).
      assert (Wd : walk w t (max_symlinks w) (start_of w (p ++ bs "/" ++ n)) (components (p ++ bs "/")) = Some (i, via)).
      { assert (Pn : p <> []) by (intros ->; unfold lstat_inode in Ls; rewrite andb_false_r in Ls; discriminate).
        now rewrite components_slash, start_prefix. }
      apply calm_cons in Un. destruct Un as [_ Un]. apply calm_cons in Un. destruct Un as [U Un2]. change (usable w (p ++ bs "/" ++ n) = true) in U. apply calm_app in Un2. destruct Un2 as [Un2 Un3].
      apply lstat_step in S2. destruct S2 as [[T2 V2] S2]. rewrite T1 in *.
      assert (Lj : lstat_inode w t (p ++ bs "/" ++ n) = Some j) by (rewrite (entry_lstat w _ AS G _ _ n i j via Lc K Ij Wd); now rewrite U).
      rewrite Lj in S2. subst r.
      destruct (IH1 s2 s3 p n j) as ([T3 O3] & H1); auto.
      assert (Str3 := O3 h _ (eq_trans (V2 h) (proj1 Now))).
      destruct (IH2 s3 s' i via (filter (fun m => negb (str_eqb m n)) due)) as (T4 & O4 & H2 & H3); auto; [congruence|].
      splits; auto.
      + intros g v Gh X. apply O4; auto. apply O3. rewrite V2, (proj2 Now g Gh). exact X.
      + intros text X. rewrite !said_other in X by discriminate. apply said_app in X. destruct X as [X|X]; auto.
        apply H1 in X. destruct X as (Q & new & Fr & WR & ->). exists Q, new. splits; auto. apply inside_from. exists i, n, j. auto.
      + intros m jm P new Im I Nm Fr WR. rewrite !said_other by discriminate. apply said_app.
        destruct (list_eq_dec byte_dec m n) as [->|Ne].
        * left. apply H1. exists P, new. splits; auto.
          assert (X : mkLink i n jm = mkLink i n j) by (eapply good_same; eauto). injection X as ->. exact Fr.
        * right. apply (H3 m jm); auto. apply filter_In. split; auto. apply negb_true_iff. now apply str_eqb_neq.
    - intros k P st tr q Kind FD s s' p n j T -> Lj -> St Un.
      destruct (file_says s tr s' _ q T FD St Un) as (_ & V & H). split; [now apply kept_same|].
      apply here; auto.
      + unfold dealt_with. unfold stat_of in Kind. cbn in Kind. destruct (kind_of w j); destruct Kind as [Kind|[Kind Sp]]; auto; discriminate.
      + intros [K _]. apply (kind_stat w t) in K. destruct Kind as [Kind|[Kind _]]; congruence.
    - intros k P st Kind Sp s s' p n j T -> Lj -> St Un. cbn [steps] in St. subst s'. split; [apply kept_same, same_refl|].
      intros text. rewrite said_nil. split; [intros []|]. unfold stat_of in Kind. cbn in Kind.
      intros (Q & new & [[_ D]|(K & _)] & _).
      + destruct D as [D|[D|D]]; try rewrite D in Kind; congruence.
      + rewrite K in Kind. discriminate.
    - intros k P st tr q Kind Rec FD s s' p n j T -> Lj -> St Un. apply kind_stat in Kind.
      destruct (file_says s tr s' _ q T FD St Un) as (_ & V & H). split; [now apply kept_same|].
      apply here; auto; [now left|]. intros [_ R]. congruence.
    - intros k P st t1 q t2 k' Kind Rec FD Dd IH s s' p n j T -> Lj -> St Un. apply kind_stat in Kind.
      apply steps_app in St. destruct St as (s1 & S1 & S2). apply calm_app in Un. destruct Un as [Ua Un].
      destruct (file_says s t1 s1 _ q T FD S1 Ua) as (-> & V & H1).
      destruct (IH s1 s') as (V2 & H2); auto; [rewrite (proj1 V); exact T|].
      split; [eapply kept_trans; [apply kept_same; exact V|exact V2]|]. intros text. rewrite said_app, H1, H2. split.
      + intros [(new & WR & ->)|(Q & new & I & WR & ->)].
        * exists (p ++ bs "/" ++ n), new. splits; auto. left. split; auto. now left.
        * exists Q, new. splits; auto. right. auto.
      + intros (Q & new & [[-> _]|(_ & _ & I)] & WR & ->); [left|right]; eauto.
  Qed.

  Definition scans (f text : str) : Prop := o_dry_run o = true /\ (0 < o_verbose o)%N /\ text = bs "Scanning: " ++ f ++ [Nb 10].

  Lemma scanning_says f text : said (scanning o f) text <-> scans f text.
  Proof.
    unfold scanning, scans, said. destruct (0 <? o_verbose o)%N eqn:V.
    - apply N.ltb_lt in V. rewrite printed_this, printed_nil. tauto.
    - apply N.ltb_ge in V. rewrite printed_nil. lia.
  Qed.

  Lemma scanning_same f s s' : steps w s (scanning o f) s' -> same s s'.
  Proof.
    unfold scanning. destruct (0 <? o_verbose o)%N; cbn [steps]; [|intros ->; apply same_refl].
    intros (s1 & S1 & ->). now apply print_step in S1.
  Qed.

  Lemma argument_says k f tr k' s s' : tree_of s = t -> argument_done o names k f tr k' -> steps w s tr s' -> calm tr ->
    kept s s' /\ forall text, said tr text <-> scans f text \/ exists P new, come_to w o t [f] P /\ would_rename w o t P new /\ text = arrow P new.
  Proof.
    intros T A St Un.
    assert (X : exists rest s1, tr = scanning o f ++ rest /\ same s s1 /\ steps w s1 rest s' /\ calm rest /\
      argument_done o names k f tr k').
    { pose proof A as A'. destruct A as [m|st tr q K FD|st K Sp|st t1 q t2 k' K FD Dd]; apply steps_app in St; destruct St as (s1 & S1 & St); apply calm_app in Un;
        destruct Un as [_ Un]; eexists; exists s1; splits; eauto using scanning_same. }
    clear St Un A. destruct X as (rest & s1 & -> & V & St & Un & A).
    assert (T1 : tree_of s1 = t) by (rewrite (proj1 V); exact T).
    assert (H : kept s1 s' /\ forall text, said rest text <-> exists P new, come_to w o t [f] P /\ would_rename w o t P new /\ text = arrow P new).
    { clear V T s. inversion A as [m E|st tr q K FD E|st K Sp E|st t1 q t2 k2 K FD Dd E]; apply app_inv_head in E; subst rest.
      - cbn [steps] in St. destruct St as (s2 & S2 & s3 & S3 & ->). apply lstat_step in S2. apply print_step in S3. destruct S2 as [V2 S2].
        split; [apply kept_same; eapply same_trans; eauto|]. intros text. rewrite !said_other by discriminate. rewrite said_nil.
        split; [intros []|]. intros (P & new & (f' & i & [<-|[]] & L & _) & _). rewrite T1, L in S2. discriminate.
      - cbn [steps] in St. destruct St as (s2 & S2 & St). apply lstat_step in S2. destruct S2 as [V2 S2].
        assert (T2 : tree_of s2 = t) by (rewrite (proj1 V2); exact T1).
        apply calm_cons in Un. destruct Un as [_ Un]. destruct (file_says s2 tr s' f q T2 FD St Un) as (_ & V3 & H).
        split; [apply kept_same; eapply same_trans; eauto|]. intros text. rewrite said_other by discriminate. rewrite H.
        rewrite T1 in S2. destruct (lstat_inode w t f) as [i|] eqn:L; [|destruct S2; discriminate]. injection S2 as ->.
        unfold stat_of in K. cbn in K. split.
        + intros (new & WR & ->). exists f, new. splits; auto. exists f, i. splits; auto; [now left|].
          unfold dealt_with. destruct (kind_of w i); destruct K as [K|[K Sp]]; auto; discriminate.
        + intros (P & new & (f' & i' & [<-|[]] & L' & _ & [->|[Kd _]]) & WR & ->); [eauto|]. rewrite L in L'. injection L' as <-.
          rewrite Kd in K. destruct K as [K|[K _]]; discriminate.
      - cbn [steps] in St. destruct St as (s2 & S2 & ->). apply lstat_step in S2. destruct S2 as [V2 S2].
        split; [now apply kept_same|]. intros text. rewrite said_other by discriminate. rewrite said_nil. split; [intros []|].
        intros (P & new & (f' & i & [<-|[]] & L & D & _) & _). rewrite T1, L in S2. injection S2 as ->. unfold stat_of in K. cbn in K.
        destruct D as [D|[D|D]]; try rewrite D in K; congruence.
      - cbn [steps] in St. destruct St as (s2 & S2 & St). apply lstat_step in S2. destruct S2 as [V2 S2].
        assert (T2 : tree_of s2 = t) by (rewrite (proj1 V2); exact T1).
        apply steps_app in St. destruct St as (s3 & S3 & St). apply calm_cons in Un. destruct Un as [_ Un]. apply calm_app in Un. destruct Un as [Ua Un].
        destruct (file_says s2 t1 s3 f q T2 FD S3 Ua) as (-> & V3 & H1).
        destruct (proj1 walk_says _ _ _ _ Dd s3 s') as (V4 & H2); auto; [rewrite (proj1 V3); exact T2|].
        split; [eapply kept_trans; [apply kept_same; eapply same_trans; eauto|exact V4]|].
        rewrite T1 in S2. destruct (lstat_inode w t f) as [i|] eqn:L; [|destruct S2; discriminate]. injection S2 as ->. apply kind_stat in K.
        intros text. rewrite said_other by discriminate. rewrite said_app, H1, H2. split.
        + intros [(new & WR & ->)|(Q & new & I & WR & ->)].
          * exists f, new. splits; auto. exists f, i. splits; auto; [now left|now left].
          * exists Q, new. splits; auto. exists f, i. splits; auto; [now left|now left].
        + intros (P & new & (f' & i' & [<-|[]] & L' & _ & [->|[_ I]]) & WR & ->); [left|right]; eauto. }
    destruct H as [V' H]. split; [eapply kept_trans; [apply kept_same; exact V|exact V']|].
    intros text. rewrite said_app, scanning_says, H. reflexivity.
  Qed.

  Lemma arguments_say k fs tr k' s s' : tree_of s = t -> arguments_done o names k fs tr k' -> steps w s tr s' -> calm tr ->
    tree_of s' = t /\ forall text, said tr text <->
      (exists f, In f fs /\ scans f text) \/ exists P new, come_to w o t fs P /\ would_rename w o t P new /\ text = arrow P new.
  Proof.
    intros T A. revert s s' T. induction A as [k|k f fs t1 k1 t2 k2 A1 A2 IH]; intros s s' T St Un.
    - cbn [steps] in St. subst s'. split; auto. intros text. rewrite said_nil. split; [intros []|].
      intros [(f & [] & _)|(P & new & (f & i & [] & _) & _)].
    - apply steps_app in St. destruct St as (s1 & S1 & St). apply calm_app in Un. destruct Un as [U1 U2].
      destruct (argument_says k f t1 k1 s s1 T A1 S1 U1) as ([T1 _] & H1).
      destruct (IH s1 s') as (T2 & H2); auto; [congruence|]. split; auto. intros text. rewrite said_app, H1, H2. split.
      + intros [[X|(P & new & (f' & i & [<-|[]] & X) & Y)]|[(f' & I & X)|(P & new & (f' & i & I & X) & Y)]].
        * left. exists f. split; auto. now left.
        * right. exists P, new. split; auto. exists f, i. split; auto. now left.
        * left. exists f'. split; auto. now right.
        * right. exists P, new. split; auto. exists f', i. split; auto. now right.
      + intros [(f' & [<-|I] & X)|(P & new & (f' & i & [<-|I] & X) & Y)]; auto.
        * right. left. eauto.
        * left. right. exists P, new. split; auto. exists f, i. split; auto. now left.
        * right. right. exists P, new. split; auto. exists f', i. split; auto.
  Qed.
End dry.

(** ** Whole runs *)

Lemma run_says w fuel o fs ign s tr s' l :
  all_searchable w -> good w (tree_of s) -> usable_list ign -> (forall x, In x (links (tree_of s)) -> ~ In (l_name x) (items ign)) ->
  runs (steady_step w) alone (process_arguments fuel o fs ign) s tr s' (Ret l) -> calm w tr ->
  tree_of s' = tree_of s /\ forall text, said o tr text <->
    (exists f, In f fs /\ scans o f text) \/ (exists p q, come_to w o (tree_of s) fs p /\ would_rename w o (tree_of s) p q /\ text = arrow p q).
Proof.
  intros AS G U Li R Un. pose proof (runs_steps _ _ _ _ _ _ R) as St. apply runs_trace in R.
  assert (SO : state_of (items ign) (cursor ign) ign) by (split; [now apply usable_good|auto]).
  destruct (arguments_forward _ _ _ _ _ _ _ _ SO R) as (k & _ & A).
  exact (arguments_say w o (items ign) (tree_of s) AS G Li _ _ _ _ _ _ eq_refl A St Un).
Qed.

(** Where nothing would be renamed, nothing is. *)
Section undone.
  Variables (w : world) (o : options_t) (names : list str) (t : tree).
  Hypothesis AS : all_searchable w.
  Hypothesis G : good w t.

  Definition nothing_inside (p : str) : Prop := forall P new, inside w o t p P -> ~ would_rename w o t P new.

  Lemma file_undone s tr s' P q : tree_of s = t -> (forall new, ~ would_rename w o t P new) -> file_done o P tr q -> steps w s tr s' ->
    q = P /\ idle s s' /\ no_rename tr.
  Proof. intros T N. apply file_idle. rewrite T. intros new t' WR. elim (N new WR). Qed.

  Let dir_undone (k : nat) (q : str) (tr : list event) (k' : nat) (_ : directory_done o names k q tr k') : Prop :=
    forall s s', tree_of s = t -> nothing_inside q -> steps w s tr s' -> idle s s' /\ no_rename tr.

  Let entries_undone (p : str) (h : N) (st : stat) (k : nat) (tr : list event) (k' : nat) (_ : entries_done o names p h st k tr k') : Prop :=
    forall s s' i via due, tree_of s = t -> lstat_inode w t p = Some i -> kind_of w i = KDir ->
      walk w t (max_symlinks w) (start_of w p) (components p) = Some (i, via) -> nothing_inside p ->
      stream_of s h = Some (i, due) -> steps w s tr s' -> idle s s' /\ no_rename tr.

  Let entry_undone (k : nat) (P : str) (st : stat) (tr : list event) (k' : nat) (_ : entry_done o names k P st tr k') : Prop :=
    forall s s' p n j, tree_of s = t -> P = p ++ bs "/" ++ n -> lstat_inode w t P = (if usable w P then Some j else None) ->
      (usable w P = true -> st = stat_of w t j) ->
      (forall Q new, from w o t p n j Q -> ~ would_rename w o t Q new) -> steps w s tr s' -> idle s s' /\ no_rename tr.

  Lemma kind_deals j : st_kind (stat_of w t j) <> SOther \/ o_special o = true -> dealt_with w o j.
  Proof. unfold dealt_with, stat_of. cbn. destruct (kind_of w j); intros [H|H]; auto; now elim H. Qed.

  Lemma here_undone p n j st : lstat_inode w t (p ++ bs "/" ++ n) = (if usable w (p ++ bs "/" ++ n) then Some j else None) ->
    (usable w (p ++ bs "/" ++ n) = true -> st = stat_of w t j) -> st_kind st <> SOther \/ o_special o = true ->
    (forall Q new, from w o t p n j Q -> ~ would_rename w o t Q new) -> forall new, ~ would_rename w o t (p ++ bs "/" ++ n) new.
  Proof.
    intros L E K N new WR. apply (N (p ++ bs "/" ++ n) new); auto. left. split; auto. apply kind_deals.
    destruct WR as [_ (i & Li & _)]. destruct (usable w (p ++ bs "/" ++ n)); [now rewrite <- E|congruence].
  Qed.

  Lemma walk_undone :
    (forall k q tr k' H, dir_undone k q tr k' H) /\
    (forall p h st k tr k' H, entries_undone p h st k tr k' H) /\
    (forall k P st tr k' H, entry_undone k P st tr k' H).
  Proof.
    apply walk_done_ind; unfold dir_undone, entries_undone, entry_undone; clear dir_undone entries_undone entry_undone.
    - intros k p m s s' T Or St. cbn [steps] in St. destruct St as (s1 & S1 & ->). apply lstat_step in S1.
      split; [now apply idle_same|]. apply no_rename_cons; [discriminate|apply no_rename_nil].
    - intros k p st N s s' T Or St. cbn [steps] in St. destruct St as (s1 & S1 & ->). apply lstat_step in S1.
      split; [now apply idle_same|]. apply no_rename_cons; [discriminate|apply no_rename_nil].
    - intros k p st m E s s' T Or St. cbn [steps] in St. destruct St as (s1 & S1 & s2 & S2 & s3 & S3 & ->).
      apply lstat_step in S1. apply print_step in S3. destruct S2 as [[T2 _] S2]. split.
      + apply idle_same. eapply same_trans; [apply S1|]. eapply same_trans; [|exact S3]. now split.
      + repeat (apply no_rename_cons; [discriminate|]). apply no_rename_nil.
    - intros k p st h tr k' E En IH s s' T Or St.
      cbn [steps] in St. destruct St as (s1 & S1 & s2 & S2 & St). apply lstat_step in S1. destruct S1 as [[T1 V1] S1].
      apply steps_app in St. destruct St as (s3 & S3 & St). cbn [steps] in St. destruct St as (s4 & S4 & St). subst s4.
      rewrite T in *. destruct (lstat_inode w t p) as [i|] eqn:Ls; [|destruct S1; discriminate]. injection S1 as ->.
      apply kind_stat in E. assert (Kd : is_dir w i = true) by (unfold is_dir; now rewrite E).
      destruct (lstat_walk w t p i Ls Kd) as (via & Wa).
      destruct S2 as [[T2 _] (i' & via' & Wa' & Fresh & Now)]. rewrite T1 in *. rewrite Wa in Wa'. injection Wa' as <- <-.
      destruct (IH s2 s3 i via (names_in t i)) as ([T3 O3] & N3); auto; [now apply Now|].
      destruct S4 as [T4 N4]. cbn in T4, N4. split.
      + split; [congruence|]. intros g x due Eg.
        assert (Gh : g <> h) by (intros ->; rewrite <- V1, Fresh in Eg; discriminate).
        rewrite (proj2 N4 g Gh). apply (O3 g x due). rewrite (proj2 Now g Gh), V1. exact Eg.
      + repeat (apply no_rename_cons; [discriminate|]). apply no_rename_app; auto.
        apply no_rename_cons; [discriminate|apply no_rename_nil].
    - intros p h st k s s' i via due T Ls K Wa A Str St. cbn [steps] in St. destruct St as (s1 & S1 & ->).
      destruct S1 as [[T1 _] (i' & due' & Str' & E & V)]. split; [apply idle_same; now split|].
      apply no_rename_cons; [discriminate|apply no_rename_nil].
    - intros p h st k n k1 tr k' Ch En IH s s' i via due T Ls K Wa A Str St.
      cbn [steps] in St. destruct St as (s1 & S1 & St).
      destruct S1 as [[T1 _] (i' & due' & Str' & _ & Now)]. rewrite Str in Str'. injection Str' as <- <-. rewrite T in T1.
      destruct (IH s1 s' i via (filter (fun m => negb (str_eqb m n)) due)) as (Id & Nr); auto; [apply Now|].
      split; [|apply no_rename_cons; [discriminate|exact Nr]]. eapply idle_trans; [|exact Id]. split; [congruence|].
      intros g x d X. destruct (N.eq_dec g h) as [->|Gh].
      + rewrite Str in X. injection X as <- <-. eexists. apply Now.
      + exists d. now rewrite (proj2 Now g Gh).
    - intros p h st k n k1 r t1 k2 t2 k' Ch En1 IH1 En2 IH2 s s' i via due T Ls K Wa A Str St.
      cbn [steps] in St. destruct St as (s1 & S1 & s2 & S2 & St). apply steps_app in St. destruct St as (s3 & S3 & St).
      destruct S1 as [[T1 FN] (i' & due' & Str' & Na & Now)]. cbn in FN. rewrite Str in Str'. injection Str' as <- <-.
      assert (Nh : ~ hidden n) by (inversion Ch; assumption).
      rewrite T in *. assert (Nn : In n (names_in t i)).
      { destruct Na as [->|[->|Na]]; auto; exfalso; apply Nh; eexists; reflexivity. }
      apply names_in_iff in Nn. destruct Nn as (j & Ij).
      rewrite (path_of_entry_whole p n FN) in *.
      assert (Lc := entry_component p n FN).
      assert (Wd : walk w t (max_symlinks w) (start_of w (p ++ bs "/" ++ n)) (components (p ++ bs "/")) = Some (i, via)).
      { assert (Pn : p <> []) by (intros ->; unfold lstat_inode in Ls; rewrite andb_false_r in Ls; discriminate).
        now rewrite components_slash, start_prefix. }
      apply lstat_step in S2. destruct S2 as [[T2 V2] S2]. rewrite T1 in *.
      assert (Lj := entry_lstat w t AS G _ _ n i j via Lc K Ij Wd). rewrite Lj in S2.
      destruct (IH1 s2 s3 p n j) as ([T3 O3] & N1); auto.
      { intros U. rewrite U in S2. now subst r. }
      { intros Q new Fr. apply (A Q new). apply inside_from. exists i, n, j. auto. }
      destruct (O3 h i (filter (fun m => negb (str_eqb m n)) due)) as (due3 & Str3); [rewrite V2; apply Now|].
      destruct (IH2 s3 s' i via due3) as (Id & N2); auto; [congruence|].
      split.
      + eapply idle_trans; [|exact Id]. eapply idle_trans; [|split; [|exact O3]; congruence]. split; [congruence|].
        intros g x d X. rewrite V2. destruct (N.eq_dec g h) as [->|Gh].
        * rewrite Str in X. injection X as <- <-. eexists. apply Now.
        * exists d. now rewrite (proj2 Now g Gh).
      + repeat (apply no_rename_cons; [discriminate|]). now apply no_rename_app.
    - intros k P st tr q Kind FD s s' p n j T -> L E A St. destruct (file_undone s tr s' (p ++ bs "/" ++ n) q T) as (_ & H); auto.
      apply here_undone with j st; auto. destruct Kind as [Kind|[_ Kind]]; auto. left. congruence.
    - intros k P st Kind Sp s s' p n j T -> L E A St. cbn [steps] in St. subst s'.
      split; [apply idle_same, same_refl|apply no_rename_nil].
    - intros k P st tr q Kind Rec FD s s' p n j T -> L E A St. destruct (file_undone s tr s' (p ++ bs "/" ++ n) q T) as (_ & H); auto.
      apply here_undone with j st; auto. left. congruence.
    - intros k P st t1 q t2 k' Kind Rec FD Dd IH s s' p n j T -> L E A St.
      apply steps_app in St. destruct St as (s1 & S1 & S2).
      destruct (file_undone s t1 s1 (p ++ bs "/" ++ n) q T) as (-> & Id1 & N1); auto.
      { apply here_undone with j st; auto. left. congruence. }
      destruct (IH s1 s') as (Id2 & N2); auto; [destruct Id1; congruence| |].
      + intros Q new I. apply A. right. splits; auto. inversion I as [p' i' n' j' Li|p' i' n' j' P' Li]; subst;
          (destruct (usable w (p ++ bs "/" ++ n)); [|congruence]; rewrite L in Li; injection Li as <-; assumption).
      + split; [eapply idle_trans; eauto|now apply no_rename_app].
  Qed.

  Lemma scanning_no_rename f : no_rename (scanning o f).
  Proof. unfold scanning. destruct (0 <? o_verbose o)%N; [|apply no_rename_nil]. apply no_rename_cons; [discriminate|apply no_rename_nil]. Qed.

  Lemma argument_undone k f tr k' s s' : tree_of s = t -> (forall P new, come_to w o t [f] P -> ~ would_rename w o t P new) ->
    argument_done o names k f tr k' -> steps w s tr s' -> idle s s' /\ no_rename tr.
  Proof.
    intros T A D St. destruct D as [m|st tr q K FD|st K Sp|st t1 q t2 k' K FD Dd]; apply steps_app in St; destruct St as (s1 & S1 & St);
      apply scanning_same in S1; assert (T1 : tree_of s1 = t) by (rewrite (proj1 S1); exact T); cbn [steps] in St;
      destruct St as (s2 & S2 & St); apply lstat_step in S2; destruct S2 as [V2 S2];
      assert (V : same s s2) by (eapply same_trans; eauto); assert (T2 : tree_of s2 = t) by (rewrite (proj1 V); exact T); rewrite T1 in S2.
    - destruct St as (s3 & S3 & ->). apply print_step in S3. split; [apply idle_same; eapply same_trans; eauto|].
      apply no_rename_app; [apply scanning_no_rename|]. repeat (apply no_rename_cons; [discriminate|]). apply no_rename_nil.
    - destruct (lstat_inode w t f) as [i|] eqn:L; [|destruct S2; discriminate]. injection S2 as ->.
      destruct (file_undone s2 tr s' f q T2) as (_ & Id & N); auto.
      { intros new. apply A. exists f, i. splits; auto; [now left|]. apply kind_deals. destruct K as [K|[_ K]]; auto. left. congruence. }
      split; [eapply idle_trans; [apply idle_same; exact V|exact Id]|]. apply no_rename_app; [apply scanning_no_rename|].
      apply no_rename_cons; [discriminate|exact N].
    - subst s'. split; [now apply idle_same|]. apply no_rename_app; [apply scanning_no_rename|].
      apply no_rename_cons; [discriminate|apply no_rename_nil].
    - destruct (lstat_inode w t f) as [i|] eqn:L; [|destruct S2; discriminate]. injection S2 as ->. apply kind_stat in K.
      apply steps_app in St. destruct St as (s3 & S3 & St).
      destruct (file_undone s2 t1 s3 f q T2) as (-> & Id & N); auto.
      { intros new. apply A. exists f, i. splits; auto; [now left|now left]. }
      destruct (proj1 walk_undone _ _ _ _ Dd s3 s') as (Id2 & N2); auto.
      { destruct Id; congruence. }
      { intros P new I. apply A. exists f, i. splits; auto; [now left|now left]. }
      split; [eapply idle_trans; [apply idle_same; exact V|eapply idle_trans; eauto]|]. apply no_rename_app; [apply scanning_no_rename|].
      apply no_rename_cons; [discriminate|now apply no_rename_app].
  Qed.

  Lemma arguments_undone k fs tr k' s s' : tree_of s = t -> (forall P new, come_to w o t fs P -> ~ would_rename w o t P new) ->
    arguments_done o names k fs tr k' -> steps w s tr s' -> tree_of s' = t /\ no_rename tr.
  Proof.
    intros T A D. revert s s' T A. induction D as [k|k f fs t1 k1 t2 k2 D1 D2 IH]; intros s s' T A St.
    - cbn [steps] in St. subst s'. split; auto. apply no_rename_nil.
    - apply steps_app in St. destruct St as (s1 & S1 & St).
      destruct (argument_undone k f t1 k1 s s1 T) as ([T1 _] & N1); auto.
      { intros P new (f' & i & [<-|[]] & X). apply A. exists f, i. split; auto. now left. }
      destruct (IH s1 s') as (T2 & N2); auto; [congruence| |].
      { intros P new (f' & i & I & X). apply A. exists f', i. split; auto. now right. }
      split; auto. now apply no_rename_app.
  Qed.
End undone.

(** ** Dry runs and others *)

Lemma dry_run_says w fuel o fs ign s tr s' l :
  all_searchable w -> wf_tree w (tree_of s) -> no_loops w (tree_of s) -> well_named (tree_of s) -> o_dry_run o = true ->
  usable_list ign -> (forall x, In x (links (tree_of s)) -> ~ In (l_name x) (items ign)) ->
  runs (steady_step w) alone (process_arguments fuel o fs ign) s tr s' (Ret l) -> Forall (unhindered w) tr ->
  tree_of s' = tree_of s /\ forall text, printed tr text <->
    (0 < o_verbose o)%N /\ (exists f, In f fs /\ text = bs "Scanning: " ++ f ++ [Nb 10]) \/
    (exists p q, come_to w o (tree_of s) fs p /\ would_rename w o (tree_of s) p q /\ text = arrow p q).
Proof.
  intros AS W NL WN D U Li R Un.
  assert (NR : no_rename tr).
  { intros old new I. apply (dry_run_quiet _ _ _ _ _ _ D (runs_trace _ _ _ _ _ _ _ R)). apply Exists_exists. eexists. split; [exact I|exact Logic.I]. }
  destruct (run_says _ _ _ _ _ _ _ _ _ AS (conj W (conj NL WN)) U Li R (conj Un NR)) as [T H]. split; auto.
  intros text. specialize (H text). unfold said, scans in H. split.
  - intros X. destruct (proj1 H (conj D X)) as [(f & I & _ & V & E)|Y]; [left; split; auto; now exists f|now right].
  - intros X. apply H. destruct X as [[V (f & I & E)]|X]; [left; exists f; auto|now right].
Qed.

Lemma come_to_dry w b o t fs P : come_to w (with_dry_run b o) t fs P <-> come_to w o t fs P.
Proof.
  assert (I : forall p Q, inside w (with_dry_run b o) t p Q <-> inside w o t p Q).
  { intros p Q. split; intros H; induction H; [eapply inside_here|eapply inside_deeper|eapply inside_here|eapply inside_deeper]; eauto. }
  unfold come_to. split; intros (f & i & A & B & C & [D|[D E]]); exists f, i; splits; auto; right; split; auto; now apply I.
Qed.

Lemma dry_and_real w fuel1 fuel2 o fs ign1 ign2 s1 tr1 s1' l1 s2 tr2 s2' l2 :
  all_searchable w -> wf_tree w (tree_of s1) -> no_loops w (tree_of s1) -> well_named (tree_of s1) -> tree_of s2 = tree_of s1 ->
  o_verbose o = 0%N -> usable_list ign1 -> usable_list ign2 ->
  (forall x, In x (links (tree_of s1)) -> ~ In (l_name x) (items ign1) /\ ~ In (l_name x) (items ign2)) ->
  runs (steady_step w) alone (process_arguments fuel1 (with_dry_run true o) fs ign1) s1 tr1 s1' (Ret l1) -> Forall (unhindered w) tr1 ->
  runs (steady_step w) alone (process_arguments fuel2 (with_dry_run false o) fs ign2) s2 tr2 s2' (Ret l2) -> Forall (unhindered w) tr2 ->
  (forall text, ~ printed tr1 text) <-> no_rename tr2.
Proof.
  intros AS W NL WN T V U1 U2 Li R1 Un1 R2 Un2.
  destruct (dry_run_says w fuel1 (with_dry_run true o) _ _ _ _ _ _ AS W NL WN eq_refl U1 (fun x I => proj1 (Li x I)) R1 Un1) as [_ H1].
  split.
  - intros Si. pose proof (runs_steps _ _ _ _ _ _ R2) as St. apply runs_trace in R2.
    assert (SO : state_of (items ign2) (cursor ign2) ign2) by (split; [now apply usable_good|auto]).
    destruct (arguments_forward _ _ _ _ _ _ _ _ SO R2) as (k & _ & A).
    apply (arguments_undone w (with_dry_run false o) (items ign2) (tree_of s1) AS (conj W (conj NL WN)) (cursor ign2) fs tr2 k s2 s2' T); auto.
    intros P new C WR. apply (Si (arrow P new)). apply H1. right. exists P, new. splits; auto.
    exact (proj2 (come_to_dry w true o _ _ _) (proj1 (come_to_dry w false o _ _ _) C)).
  - intros NR text X. apply H1 in X. destruct X as [[X _]|(P & new & C & WR & ->)]; [cbn in X; lia|].
    assert (G2 : good w (tree_of s2)) by (rewrite T; split; auto).
    destruct (run_says _ _ _ _ _ _ _ _ _ AS G2 U2 (fun x I => proj2 (Li x (eq_ind _ (fun y => In x (links y)) I _ T))) R2 (conj Un2 NR)) as [_ H2].
    rewrite T in H2. destruct (proj2 (H2 (arrow P new))) as [X _]; [|discriminate X].
    right. exists P, new. splits; auto. exact (proj2 (come_to_dry w false o _ _ _) (proj1 (come_to_dry w true o _ _ _) C)).
Qed.
