(** * A whole directory *)

From Verif Require Import Base BaseFacts CleanSpec Filter Filelist Prog ProgFacts File FS FSProofs FileSpec FileProofs FileProofs2
  RunSpec RunProofs RunProofs3 TidySpec TidyProofs TidyProofs2.

Local Open Scope nat_scope.

(** ** What work below a directory leaves alone *)

(** From [t] to [t'] only entries in directories with property [D] have changed, and only
    their names. *)
Definition only_in (D : inode -> Prop) (t t' : tree) : Prop :=
  (forall x, parent t' x = parent t x) /\ (forall x, refs t' x = refs t x) /\
  (forall l, ~ D (l_dir l) -> In l (links t') <-> In l (links t)).

Lemma only_in_refl D t : only_in D t t.
Proof. unfold only_in. splits; auto. tauto. Qed.

Lemma only_in_trans D a b c : only_in D a b -> only_in D b c -> only_in D a c.
Proof.
  intros (A1 & A2 & A3) (B1 & B2 & B3). unfold only_in. splits; intros.
  - now rewrite B1.
  - now rewrite B2.
  - rewrite B3; auto.
Qed.

Lemma only_in_mono (D E : inode -> Prop) t t' : (forall x, D x -> E x) -> only_in D t t' -> only_in E t t'.
Proof. intros H (A1 & A2 & A3). unfold only_in. splits; auto. Qed.

Lemma retitled_only w t l l' t' : retitled w t l l' t' -> only_in (fun x => x = l_dir l) t t'.
Proof.
  intros (D & T & I & Li & Pa & Rf). unfold only_in. splits; auto. intros x N. rewrite Li. split.
  - intros [[Ix _]| ->]; auto. exfalso. now apply N.
  - intros Ix. left. split; auto. intros ->. now apply N.
Qed.

(** Streams of directories outside are not affected. *)
Definition streams_outside (D : inode -> Prop) (s s' : state) : Prop :=
  forall h x due, ~ D x -> stream_of s h = Some (x, due) ->
    exists due', stream_of s' h = Some (x, due') /\ forall y, In y due -> In y (names_in (tree_of s') x) -> In y due'.

Definition frame (w : world) (i : inode) (s s' : state) : Prop :=
  only_in (below (tree_of s) i) (tree_of s) (tree_of s') /\ streams_outside (below (tree_of s) i) s s'.

Lemma only_below D t t' i x : only_in D t t' -> below t' i x <-> below t i x.
Proof. intros (P & _). split; apply below_ext; auto. Qed.

Lemma names_outside D t t' x : only_in D t t' -> ~ D x -> forall y, In y (names_in t' x) <-> In y (names_in t x).
Proof.
  intros (_ & _ & L) N y. rewrite !names_in_iff. split; intros (j & I); exists j; apply L in I; auto.
Qed.

Lemma frame_trans w i a b c : frame w i a b -> frame w i b c -> frame w i a c.
Proof.
  intros [A1 A2] [B1 B2]. assert (E : forall x, below (tree_of b) i x <-> below (tree_of a) i x) by (intros; eapply only_below; eauto).
  assert (B1' : only_in (below (tree_of a) i) (tree_of b) (tree_of c)) by (eapply only_in_mono; [|exact B1]; intros x; apply E).
  split; [eapply only_in_trans; eauto|].
  intros h x due N S. destruct (A2 h x due N S) as (d1 & S1 & I1).
  destruct (B2 h x d1) as (d2 & S2 & I2); auto. { now rewrite E. }
  exists d2. split; auto. intros y Iy Ny. apply I2; auto. apply I1; auto. now apply (names_outside _ _ _ x B1').
Qed.

Lemma frame_up w i j s s' : below (tree_of s) i j -> frame w j s s' -> frame w i s s'.
Proof.
  intros B [A1 A2]. assert (H : forall x, below (tree_of s) j x -> below (tree_of s) i x) by (intros; eapply below_trans; eauto).
  split; [eapply only_in_mono; eauto|]. intros h x due N. apply A2. auto.
Qed.

Lemma frame_same w i s s' : same s s' -> frame w i s s'.
Proof.
  intros [T U]. split; [rewrite T; apply only_in_refl|]. intros h x due _ S. exists due. rewrite U. auto.
Qed.

Lemma frame_now w i s s' h v : tree_of s' = tree_of s -> now s s' h v ->
  (forall x due, stream_of s h = Some (x, due) -> below (tree_of s) i x) -> frame w i s s'.
Proof.
  intros T [N1 N2] H. split; [rewrite T; apply only_in_refl|].
  intros g x due N S. exists due. destruct (N.eq_dec g h) as [->|Ng]; [exfalso; eauto|]. rewrite N2; auto.
Qed.

Lemma lookup_outside w D t t' x c : wf_tree w t -> wf_tree w t' -> only_in D t t' -> ~ D x -> lookup w t' x c = lookup w t x c.
Proof.
  intros W W' (P & R & L) N. unfold lookup. destruct (is_dir w x && searchable w x)%bool; auto.
  destruct (dot_name c); auto. destruct (dotdot_name c); [now rewrite P|].
  assert (E : forall j, entry w t' x c = Some j <-> entry w t x c = Some j).
  { intros j. rewrite !entry_iff by (apply W || apply W'). split; intros (y & Iy & K & Ty); exists y; splits; auto;
    apply L; auto; unfold key in K; injection K as <- _; auto. }
  destruct (entry w t' x c) as [j|] eqn:E1; [symmetry; now apply E|].
  destruct (entry w t x c) as [j|] eqn:E2; auto. destruct (E j) as [_ X]. discriminate (X eq_refl).
Qed.

Lemma walk_outside w D t t' k d comps e via : wf_tree w t -> wf_tree w t' -> only_in D t t' ->
  (forall x c, In (x, c) via -> c = bs "." \/ c = bs ".." \/ ~ D x) ->
  walk w t k d comps = Some (e, via) -> walk w t' k d comps = Some (e, via).
Proof.
  intros W W' O H Wa. eapply walk_stable; [exact Wa|]. intros x c i I L. destruct (H x c I) as [->|[->|N]].
  - exact L.
  - unfold lookup in *. cbn in *. destruct O as (P & _). now rewrite P.
  - now rewrite (lookup_outside w D t t' x c W W' O N).
Qed.

Lemma at_rest_outside w o D t t' l : wf_tree w t -> wf_tree w t' -> only_in D t t' -> ~ D (l_dir l) ->
  at_rest w o t l -> at_rest w o t' l.
Proof.
  intros W W' O N (c & C & H). exists c. split; auto. destruct H as [H|[H|(j & L & H)]]; auto.
  right. right. exists j. rewrite (lookup_outside w D t t' _ c W W' O N). split; auto.
  destruct O as (_ & R & _). now rewrite (stat_same w t t' _ R).
Qed.

Lemma in_order_outside w o names D t t' l : wf_tree w t -> wf_tree w t' -> only_in D t t' -> ~ D (l_dir l) ->
  in_order w o names t l -> in_order w o names t' l.
Proof. intros W W' O N [H|[H|H]]; [now left|right; now left|]. right. right. now apply (at_rest_outside w o D t t'). Qed.

(** A walk enters only what is below its start. *)
Lemma entered_below w o names t i x : good w t -> entered w o names t i x -> below t i x.
Proof.
  intros G E. induction E as [|l E IH I R K N]; [constructor|]. apply below_up.
  rewrite (good_parent w t l G I); auto. unfold is_dir. now rewrite K.
Qed.

Lemma entered_outside w o names D t t' i x : good w t -> good w t' -> only_in D t t' -> (forall y, below t i y -> ~ D y) ->
  entered w o names t' i x -> entered w o names t i x.
Proof.
  intros G G' O H E. induction E as [|l E IH I R K N]; [constructor|].
  apply entered_next; auto. apply (entered_below w o names t' i) in E; auto.
  apply (only_below D t t' i) in E; auto. destruct O as (_ & _ & L). apply L in I; auto.
Qed.

Lemma all_outside w o names D t t' i : good w t -> good w t' -> only_in D t t' -> (forall y, below t i y -> ~ D y) ->
  all_in_order w o names t i -> all_in_order w o names t' i.
Proof.
  intros G G' O H A l I E. assert (N : ~ D (l_dir l)).
  { apply H. apply (only_below D t t' i); auto. now apply (entered_below w o names t' i). }
  apply (in_order_outside w o names D t t'); try apply G; try apply G'; auto. apply A.
  - destruct O as (_ & _ & L). apply L in I; auto.
  - eapply entered_outside; eauto.
Qed.

(** ** Entries that have been dealt with *)

Definition finished (w : world) (o : options_t) (names : list str) (t : tree) (l : link) : Prop :=
  in_order w o names t l /\
  (kind_of w (l_target l) = KDir -> o_recurse o = true -> ~ passed_over names (l_name l) -> all_in_order w o names t (l_target l)).

Lemma all_finished w o names t i : good w t ->
  (forall l, In l (links t) -> l_dir l = i -> finished w o names t l) -> all_in_order w o names t i.
Proof.
  intros G H l I E.
  assert (X : l_dir l = i \/ exists l0, In l0 (links t) /\ l_dir l0 = i /\ o_recurse o = true /\ kind_of w (l_target l0) = KDir /\
     ~ passed_over names (l_name l0) /\ entered w o names t (l_target l0) (l_dir l)).
  { generalize dependent (l_dir l). intros x E. induction E as [|y E IH Iy R K N]; auto. right.
    destruct IH as [IH|(l0 & I0 & D0 & R0 & K0 & N0 & E0)].
    - exists y. splits; auto. constructor.
    - exists l0. splits; auto. now apply entered_next. }
  destruct X as [X|(l0 & I0 & D0 & R0 & K0 & N0 & E0)].
  - exact (proj1 (H l I X)).
  - exact (proj2 (H l0 I0 D0) K0 R0 N0 l I E0).
Qed.

Lemma path_of_entry_whole p n : file_name n -> path_of_entry p n = p ++ bs "/" ++ n.
Proof.
  intros (_ & _ & _ & L). unfold path_of_entry. apply firstn_all2. rewrite !app_length. change (length (bs "/")) with 1. lia.
Qed.

Lemma entry_component p n : file_name n -> last_component (p ++ bs "/" ++ n) (p ++ bs "/") n.
Proof. intros (_ & S & _). split; [now rewrite <- app_assoc|]. split; auto. right. now exists p. Qed.

Lemma components_slash p : components (p ++ bs "/") = components p.
Proof.
  unfold components. change (bs "/") with ["/"%byte]. rewrite pieces_slash, filter_app. cbn. apply app_nil_r.
Qed.

Lemma start_prefix w p x : p <> [] -> start_of w (p ++ x) = start_of w p.
Proof. destruct p; [contradiction|]. reflexivity. Qed.

Lemma finished_outside w o names (D : inode -> Prop) t t' l : good w t -> good w t' -> only_in D t t' -> ~ D (l_dir l) ->
  (kind_of w (l_target l) = KDir -> forall y, below t (l_target l) y -> ~ D y) ->
  finished w o names t l -> finished w o names t' l.
Proof.
  intros G G' O N H [A B]. split.
  - apply (in_order_outside w o names D t t'); auto; [apply G|apply G'].
  - intros K R P. apply (all_outside w o names D t t'); auto.
Qed.

(** ** The walk *)

Section walk.
  Variables (w : world) (o : options_t) (names : list str).
  Hypothesis AS : all_searchable w.
  Hypothesis Se : settles o.
  Hypothesis Rc : respects_case w o.
  Hypothesis Dry : o_dry_run o = false.

  Definition outside (t : tree) (i : inode) (via : visited) : Prop :=
    forall x c, In (x, c) via -> c = bs "." \/ c = bs ".." \/ ~ below t i x.

  Let dir_ok (k : nat) (q : str) (tr : list event) (k' : nat) (_ : directory_done o names k q tr k') : Prop :=
    forall s s' i via,
      good w (tree_of s) -> lstat_inode w (tree_of s) q = Some i -> kind_of w i = KDir ->
      walk w (tree_of s) (max_symlinks w) (start_of w q) (components q) = Some (i, via) -> outside (tree_of s) i via ->
      steps w s tr s' -> Forall (unhindered w) tr ->
      good w (tree_of s') /\ frame w i s s' /\ all_in_order w o names (tree_of s') i.

  Let entries_ok (p : str) (h : N) (st : stat) (k : nat) (tr : list event) (k' : nat) (_ : entries_done o names p h st k tr k') : Prop :=
    forall s s' i via due,
      good w (tree_of s) -> p <> [] -> kind_of w i = KDir ->
      walk w (tree_of s) (max_symlinks w) (start_of w p) (components p) = Some (i, via) -> outside (tree_of s) i via ->
      stream_of s h = Some (i, due) ->
      (forall l, In l (links (tree_of s)) -> l_dir l = i -> In (l_name l) due \/ finished w o names (tree_of s) l) ->
      steps w s tr s' -> Forall (unhindered w) tr ->
      good w (tree_of s') /\ frame w i s s' /\
      (exists due', stream_of s' h = Some (i, due')) /\
      (forall l, In l (links (tree_of s')) -> l_dir l = i -> finished w o names (tree_of s') l).

  Let entry_ok (k : nat) (P : str) (st : stat) (tr : list event) (k' : nat) (_ : entry_done o names k P st tr k') : Prop :=
    forall s s' dir n i j via h due,
      good w (tree_of s) -> last_component P dir n -> kind_of w i = KDir -> usable w P = true ->
      In (mkLink i n j) (links (tree_of s)) -> st = stat_of w (tree_of s) j ->
      walk w (tree_of s) (max_symlinks w) (start_of w P) (components dir) = Some (i, via) -> outside (tree_of s) i via ->
      stream_of s h = Some (i, due) ->
      steps w s tr s' -> Forall (unhindered w) tr ->
      good w (tree_of s') /\ frame w i s s' /\
      (exists due', stream_of s' h = Some (i, due') /\
         forall y, In y due -> In y (names_in (tree_of s') i) -> In y due') /\
      exists n', finished w o names (tree_of s') (mkLink i n' j) /\
        (forall l, l_dir l = i -> In l (links (tree_of s')) <-> In l (links (tree_of s)) /\ l <> mkLink i n j \/ l = mkLink i n' j) /\
        (forall l, l_dir l = i -> In l (links (tree_of s)) -> l <> mkLink i n j ->
           finished w o names (tree_of s) l -> finished w o names (tree_of s') l).

  Lemma kind_stat t j : st_kind (stat_of w t j) = SDir <-> kind_of w j = KDir.
  Proof. unfold stat_of. cbn [st_kind]. destruct (kind_of w j); split; congruence. Qed.

  (** Cleaning one entry. *)
  Lemma entry_file_ok P tr q s s' dir n i j via :
    good w (tree_of s) -> last_component P dir n -> kind_of w i = KDir -> usable w P = true ->
    In (mkLink i n j) (links (tree_of s)) ->
    walk w (tree_of s) (max_symlinks w) (start_of w P) (components dir) = Some (i, via) -> outside (tree_of s) i via ->
    file_done o P tr q -> steps w s tr s' -> Forall (unhindered w) tr ->
    exists n',
      good w (tree_of s') /\ retitled w (tree_of s) (mkLink i n j) (mkLink i n' j) (tree_of s') /\ streams_kept s s' /\
      frame w i s s' /\ last_component q dir n' /\ n' <> [] /\ n' <> bs "." /\ n' <> bs ".." /\ usable w q = true /\
      walk w (tree_of s') (max_symlinks w) (start_of w q) (components dir) = Some (i, via) /\
      at_rest w o (tree_of s') (mkLink i n' j) /\
      (forall l, l_dir l = i -> In l (links (tree_of s)) -> l <> mkLink i n j ->
         finished w o names (tree_of s) l -> finished w o names (tree_of s') l).
  Proof.
    intros G L K U I Wa Out FD St Un.
    destruct (proj2 (proj2 G) _ I) as (FN & D1 & D2). cbn in FN, D1, D2.
    assert (Kd : is_dir w i = true) by (unfold is_dir; now rewrite K).
    destruct (file_lemma w o s tr s' P q dir n i n j via) as
      (n' & b & G' & Re & Sk & Eq & Lb & B0 & B1 & B2 & Uq & Fb & Wq & Ar & _ & Oth); auto.
    { intros x y Ix. destruct (Out x y Ix) as [H|[H|H]]; auto. right. right. intros [-> _]. apply H. constructor. }
    destruct (Ar eq_refl) as [Ar' <-]. exists n'. assert (Bn : n' <> []) by apply B0.
    assert (O : only_in (fun x => x = i) (tree_of s) (tree_of s')) by (exact (retitled_only w _ _ _ _ Re)).
    splits; auto.
    - split.
      + eapply only_in_mono; [|exact O]. cbn. intros x ->. constructor.
      + intros h x due _ S. now apply Sk.
    - intros l Dl Il Nl [F1 F2]. split.
      + destruct F1 as [F1|[F1|F1]]; [now left|right; now left|]. right. right. auto.
      + intros Kl R P'. apply (all_outside w o names (fun x => x = i) (tree_of s) (tree_of s')); auto.
        intros y By ->. assert (is_dir w (l_target l) = true) by (unfold is_dir; now rewrite Kl).
        destruct G as (_ & NL & _). apply (NL l Il); auto. now rewrite Dl.
  Qed.

  Lemma walk_ok :
    (forall k q tr k' H, dir_ok k q tr k' H) /\
    (forall p h st k tr k' H, entries_ok p h st k tr k' H) /\
    (forall k P st tr k' H, entry_ok k P st tr k' H).
  Proof.
    apply walk_done_ind; unfold dir_ok, entries_ok, entry_ok; clear dir_ok entries_ok entry_ok.
    - (* gone *)
      intros k p m s s' i via G Ls K Wa Out St Un. cbn [steps] in St. destruct St as (s1 & S1 & _).
      apply lstat_step in S1. destruct S1 as [_ S1]. rewrite Ls in S1. discriminate.
    - (* not a directory *)
      intros k p st N s s' i via G Ls K Wa Out St Un. cbn [steps] in St. destruct St as (s1 & S1 & _).
      apply lstat_step in S1. destruct S1 as [_ S1]. rewrite Ls in S1. injection S1 as ->. exfalso. apply N. now apply kind_stat.
    - (* not opened *)
      intros k p st m E s s' i via G Ls K Wa Out St Un. exfalso.
      inversion Un as [|? ? _ Un1]; subst. inversion Un1 as [|? ? X _]; subst. cbn in X. destruct X as [h X]. discriminate.
    - (* read *)
      intros k p st h tr k' E En IH s s' i via G Ls K Wa Out St Un.
      inversion Un as [|? ? _ Un1]; subst. inversion Un1 as [|? ? _ Un2]; subst. apply Forall_app in Un2. destruct Un2 as [Un2 _].
      cbn [steps] in St. destruct St as (s1 & S1 & s2 & S2 & St). apply lstat_step in S1. destruct S1 as [[T1 V1] _].
      apply steps_app in St. destruct St as (s3 & S3 & St). cbn [steps] in St. destruct St as (s4 & S4 & St). subst s4.
      destruct S2 as [[T2 _] (i' & via' & Wa' & Fresh & Now)]. rewrite T1 in *. rewrite Wa in Wa'. injection Wa' as <- <-.
      assert (Pn : p <> []) by (intros ->; unfold lstat_inode in Ls; rewrite andb_false_r in Ls; discriminate).
      destruct (IH s2 s3 i via (names_in (tree_of s) i)) as (G3 & F3 & (due3 & Str3) & Fin); rewrite ?T2; auto.
      { apply Now. }
      { intros l Il Dl. left. apply names_in_iff. exists (l_target l). rewrite <- Dl. now destruct l. }
      destruct S4 as [T4 N4]. cbn in T4, N4. rewrite T4. splits; auto.
      + assert (A : frame w i s s2).
        { eapply frame_trans; [now apply (frame_same w i s s1); split|].
          apply (frame_now w i s1 s2 h (Some (i, names_in (tree_of s) i))); [congruence|exact Now|]. intros x due X. rewrite Fresh in X. discriminate. }
        eapply frame_trans; [exact A|]. eapply frame_trans; [exact F3|].
        apply (frame_now w i s3 s' h None); [auto|exact N4|]. intros x due X. rewrite Str3 in X. injection X as <- _. constructor.
      + now apply all_finished.
    - (* no more names *)
      intros p h st k s s' i via due G Pn K Wa Out Str Inv St Un. cbn [steps] in St. destruct St as (s1 & S1 & ->).
      destruct S1 as [[T _] (i' & due' & Str' & E & V)]. rewrite Str in Str'. injection Str' as <- <-. subst due.
      assert (Sm : same s s1) by (now split). rewrite T. splits; auto.
      + now apply frame_same.
      + exists []. now rewrite V.
      + intros l Il Dl. destruct (Inv l Il Dl) as [[]|F]; auto.
    - (* passed over *)
      intros p h st k n k1 tr k' Ch En IH s s' i via due G Pn K Wa Out Str Inv St Un.
      inversion Un as [|? ? _ Un1]; subst. cbn [steps] in St. destruct St as (s1 & S1 & St).
      destruct S1 as [[T _] (i' & due' & Str' & _ & Now)]. rewrite Str in Str'. injection Str' as <- <-.
      destruct (IH s1 s' i via (filter (fun m => negb (str_eqb m n)) due)) as (G' & F' & D' & Fin); rewrite ?T; auto.
      { apply Now. }
      { intros l Il Dl. destruct (Inv l Il Dl) as [F|F]; auto. destruct (str_eqb (l_name l) n) eqn:E.
        - right. apply str_eqb_eq in E. assert (Po : passed_over names (l_name l)) by (rewrite E; eapply check_not_listed; eauto).
          split; [now left|]. intros _ _ X. contradiction.
        - left. apply filter_In. split; auto. now rewrite E. }
      splits; auto. eapply frame_trans; [|exact F']. apply (frame_now w i s s1 h (Some (i, filter (fun m => negb (str_eqb m n)) due))); auto.
      intros x d X. rewrite Str in X. injection X as <- _. constructor.
    - (* an entry *)
      intros p h st k n k1 r t1 k2 t2 k' Ch En1 IH1 En2 IH2 s s' i via due G Pn K Wa Out Str Inv St Un.
      inversion Un as [|? ? _ Un1]; subst. inversion Un1 as [|? ? U Un2]; subst. apply Forall_app in Un2. destruct Un2 as [Un2 Un3].
      cbn [steps] in St. destruct St as (s1 & S1 & s2 & S2 & St). apply steps_app in St. destruct St as (s3 & S3 & St).
      destruct S1 as [[T1 FN] (i' & due' & Str' & Na & Now)]. cbn in FN. rewrite Str in Str'. injection Str' as <- <-.
      assert (Nh : ~ hidden n) by (inversion Ch; assumption).
      assert (Nn : In n (names_in (tree_of s) i)).
      { destruct Na as [->|[->|Na]]; auto; exfalso; apply Nh; eexists; reflexivity. }
      apply names_in_iff in Nn. destruct Nn as (j & Ij).
      rewrite (path_of_entry_whole p n FN) in *.
      assert (Lc := entry_component p n FN).
      assert (Wd : walk w (tree_of s) (max_symlinks w) (start_of w (p ++ bs "/" ++ n)) (components (p ++ bs "/")) = Some (i, via)).
      { now rewrite components_slash, start_prefix. }
      assert (Kd : is_dir w i = true) by (unfold is_dir; now rewrite K).
      apply lstat_step in S2. destruct S2 as [[T2 V2] S2]. cbn in U. rewrite T1 in *.
      destruct (proj2 (proj2 G) _ Ij) as (_ & D1 & D2). cbn in D1, D2.
      destruct (found w (tree_of s) (p ++ bs "/" ++ n) (p ++ bs "/") n i n j via) as (_ & _ & Ls); auto; try apply G; try apply FN.
      rewrite Ls in S2. subst r. cbn [latest_stat] in *.
      assert (Str2 : stream_of s2 h = Some (i, filter (fun m => negb (str_eqb m n)) due)) by (rewrite V2; apply Now).
      destruct (IH1 s2 s3 (p ++ bs "/") n i j via h (filter (fun m => negb (str_eqb m n)) due)) as
        (G3 & F3 & (due3 & Str3 & Due3) & n' & Fin & Li & Keep); rewrite ?T2, ?T1; auto.
      rewrite T2 in Li, Keep.
      assert (F2 : frame w i s s2).
      { eapply frame_trans; [|apply (frame_same w i s1 s2); split; congruence].
        apply (frame_now w i s s1 h (Some (i, filter (fun m => negb (str_eqb m n)) due))); auto. intros x d X. rewrite Str in X. injection X as <- _. constructor. }
      assert (F13 := frame_trans _ _ _ _ _ F2 F3).
      destruct (IH2 s3 s' i via due3) as (G' & F' & D' & Fin'); auto.
      { eapply walk_outside; [apply G|apply G3|apply F13|exact Out|exact Wa]. }
      { intros x c Ix. rewrite (only_below _ (tree_of s) (tree_of s3) i x (proj1 F13)). now apply Out. }
      { intros l Il Dl. apply Li in Il; auto. destruct Il as [[Il Nl]| ->]; auto.
        destruct (Inv l Il Dl) as [F|F].
        - left. apply Due3.
          + apply filter_In. split; auto. apply negb_true_iff. apply not_true_iff_false. rewrite str_eqb_eq. intros E.
            apply Nl. apply (good_same w (tree_of s)); auto. unfold key. cbn. now rewrite Dl, E.
          + apply names_in_iff. exists (l_target l).
            replace (mkLink i (l_name l) (l_target l)) with l by (rewrite <- Dl; now destruct l). apply Li; auto.
        - right. now apply Keep. }
      splits; auto. eapply frame_trans; eauto.
    - (* a file *)
      intros k P st tr q Kind FD s s' dir n i j via h due G L K U I E Wa Out Str St Un.
      destruct (entry_file_ok P tr q s s' dir n i j via) as (n' & G' & Re & Sk & Fr & Lb & B0 & B1 & B2 & Uq & Wq & Ar & Oth); auto.
      splits; auto. exists n'. splits; auto.
      + split; [now right; right|]. intros Kj. exfalso. cbn in Kj. rewrite <- (kind_stat (tree_of s)), <- E in Kj.
        destruct Kind as [Kind|[Kind _]]; congruence.
      + intros l Dl. destruct Re as (_ & _ & _ & Li & _). apply Li.
    - (* special *)
      intros k P st Kind Sp s s' dir n i j via h due G L K U I E Wa Out Str St Un. cbn [steps] in St. subst s'.
      splits; auto; [apply frame_same, same_refl|exists due; auto|]. exists n. splits; auto.
      + split.
        * right. left. cbn. subst st. unfold stat_of in Kind. cbn in Kind. splits; auto; intros X; rewrite X in Kind; discriminate.
        * intros Kj. exfalso. cbn in Kj. rewrite <- (kind_stat (tree_of s)), <- E in Kj. congruence.
      + intros l _. destruct (retitled_same w (tree_of s) _ I) as (_ & _ & _ & Li & _). apply Li.
    - (* a directory, without recursion *)
      intros k P st tr q Kind Rec FD s s' dir n i j via h due G L K U I E Wa Out Str St Un.
      destruct (entry_file_ok P tr q s s' dir n i j via) as (n' & G' & Re & Sk & Fr & Lb & B0 & B1 & B2 & Uq & Wq & Ar & Oth); auto.
      splits; auto. exists n'. splits; auto.
      + split; [now right; right|]. intros _ R. congruence.
      + intros l Dl. destruct Re as (_ & _ & _ & Li & _). apply Li.
    - (* a directory, with recursion *)
      intros k P st t1 q t2 k' Kind Rec FD Dd IH s s' dir n i j via h due G L K U I E Wa Out Str St Un.
      apply Forall_app in Un. destruct Un as [Un1 Un2]. apply steps_app in St. destruct St as (s1 & S1 & S2).
      destruct (entry_file_ok P t1 q s s1 dir n i j via) as (n' & G1 & Re & Sk & Fr & Lb & B0 & B1 & B2 & Uq & Wq & Ar & Oth); auto.
      assert (Kd : is_dir w i = true) by (unfold is_dir; now rewrite K).
      assert (Kj : kind_of w j = KDir) by (rewrite <- (kind_stat (tree_of s)), <- E; exact Kind).
      assert (Kjd : is_dir w j = true) by (unfold is_dir; now rewrite Kj).
      pose proof Re as (_ & _ & _ & Li & Pa & _).
      assert (I1 : In (mkLink i n' j) (links (tree_of s1))) by (apply Li; now right).
      assert (Nb : ~ below (tree_of s1) j i) by (apply (proj1 (proj2 G1) _ I1); auto).
      destruct (found w (tree_of s1) q dir n' i n' j via) as (_ & Lk & Ls); auto; try apply G1.
      assert (Bij : below (tree_of s1) i j).
      { apply below_up. pose proof (good_parent w (tree_of s1) _ G1 I1 Kjd) as X. cbn in X. rewrite X. constructor. }
      destruct (IH s1 s' j (via ++ [(i, n')])) as (G' & F' & A'); auto.
      { rewrite (components_last q dir n' Lb B0). now apply walk_last. }
      { intros x c Ix. apply in_app_or in Ix. destruct Ix as [Ix|[Ix|[]]].
        - destruct (Out x c Ix) as [H|[H|H]]; auto. right. right. intros B. apply H.
          eapply below_ext with (t := tree_of s1); [intros; now rewrite Pa|]. eapply below_trans; eauto.
        - injection Ix as <- <-. auto. }
      assert (Li' : forall l, l_dir l = i -> In l (links (tree_of s')) <-> In l (links (tree_of s1))).
      { intros l Dl. apply (proj1 F'). now rewrite Dl. }
      splits; auto.
      + eapply frame_trans; [exact Fr|]. eapply frame_up; eauto.
      + destruct (Sk h i due Str) as (d1 & Str1 & D1). destruct (proj2 F' h i d1 Nb Str1) as (d2 & Str2 & D2).
        exists d2. split; auto. intros y Iy Ny. apply D2; auto. apply D1; auto. now apply (names_outside _ _ _ i (proj1 F') Nb).
      + exists n'. splits.
        * split; [right; right; eapply at_rest_outside; [apply G1|apply G'|apply F'|exact Nb|exact Ar]|]. intros _ _ _. exact A'.
        * intros l Dl. rewrite Li'; auto.
        * intros l Dl Il Nl F. apply (finished_outside w o names (below (tree_of s1) j) (tree_of s1) (tree_of s')); auto.
          { apply F'. } { now rewrite Dl. }
          intros Kl y By By'.
          assert (Il1 : In l (links (tree_of s1))) by (apply Li; auto).
          assert (X : l = mkLink i n' j).
          { apply (apart w (tree_of s1) l (mkLink i n' j) y); auto. unfold is_dir. now rewrite Kl. }
          subst l. destruct (link_dec (mkLink i n j) (mkLink i n' j)) as [Y|Y]; [congruence|].
          apply Nl. apply (good_dir_once w (tree_of s)); auto.
  Qed.
End walk.
