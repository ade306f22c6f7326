(** * Renaming entries in their directories *)

From Verif Require Import Base BaseFacts CleanSpec Filter Filelist Prog ProgFacts File FS FSProofs FileSpec FileProofs FileProofs2 RunSpec RunProofs TidySpec.

Local Open Scope nat_scope.

(** ** Lists and trees *)

Lemma map_inj {A B} (f : A -> B) l a b : NoDup (map f l) -> In a l -> In b l -> f a = f b -> a = b.
Proof.
  induction l as [|x l IH]; intros ND Ia Ib E; [destruct Ia|].
  cbn [map] in ND. inversion ND as [|? ? N ND']; subst.
  destruct Ia as [->|Ia], Ib as [->|Ib]; auto.
  - exfalso. apply N. rewrite E. now apply in_map.
  - exfalso. apply N. rewrite <- E. now apply in_map.
Qed.

Lemma map_nodup {A B} (f : A -> B) (g : A -> A) l :
  NoDup (map f l) -> (forall a b, In a l -> In b l -> f (g a) = f (g b) -> f a = f b) -> NoDup (map f (map g l)).
Proof.
  induction l as [|x l IH]; intros ND H; [constructor|].
  cbn [map] in *. inversion ND as [|? ? N ND']; subst. constructor.
  - intros I. rewrite map_map in I. apply in_map_iff in I. destruct I as (y & E & I). apply N.
    rewrite (H x y); [now apply in_map|now left|now right|auto].
  - apply IH; auto. intros a b Ia Ib. apply H; now right.
Qed.

Lemma entry_iff w t d n j : NoDup (map (key w) (links t)) ->
  entry w t d n = Some j <-> exists l, In l (links t) /\ key w l = (d, fold_name w d n) /\ l_target l = j.
Proof.
  intros ND. split.
  - intros E. apply entry_in in E. destruct E as (l & I & A & T). exists l. now rewrite <- answers_key.
  - intros (l & I & K & T). unfold entry. destruct (find (answers w d n) (links t)) as [x|] eqn:F.
    + apply find_some in F. destruct F as [Ix Ax]. apply answers_key in Ax.
      rewrite (map_inj (key w) (links t) x l); auto; [now cbn; rewrite T|congruence].
    + apply find_none with (x := l) in F; auto. apply answers_key in K. congruence.
Qed.

Lemma names_in_iff t d n : In n (names_in t d) <-> exists j, In (mkLink d n j) (links t).
Proof.
  unfold names_in. rewrite in_map_iff. split.
  - intros ([d' n' j] & E & I). apply filter_In in I. destruct I as [I D]. cbn in *. apply inode_eqb_eq in D. subst. eauto.
  - intros (j & I). exists (mkLink d n j). split; auto. apply filter_In. split; auto. cbn. apply inode_eqb_refl.
Qed.

Lemma below_ext t t' i x : (forall y, parent t' y = parent t y) -> below t i x -> below t' i x.
Proof. intros E B. induction B; [constructor|]. apply below_up. now rewrite E. Qed.

Lemma below_trans t i j x : below t i j -> below t j x -> below t i x.
Proof. intros A B. induction B; auto. now apply below_up. Qed.

Lemma below_linear t a b x : below t a x -> below t b x -> below t a b \/ below t b a.
Proof.
  intros A. induction A as [|x A IH]; intros B; [now right|].
  inversion B; subst; [left; now apply below_up|auto].
Qed.

(** ** What holds of a tree all the time *)

Definition good (w : world) (t : tree) : Prop := wf_tree w t /\ no_loops w t /\ well_named t.

Lemma good_keys w t : good w t -> NoDup (map (key w) (links t)).
Proof. intros ((K & _) & _). exact K. Qed.

Lemma good_parent w t l : good w t -> In l (links t) -> is_dir w (l_target l) = true -> parent t (l_target l) = l_dir l.
Proof. intros ((_ & _ & P & _) & _). apply P. Qed.

Lemma good_dir_once w t l l' : good w t -> In l (links t) -> In l' (links t) -> is_dir w (l_target l) = true ->
  l_target l' = l_target l -> l' = l.
Proof.
  intros ((_ & D & _) & _) I I' K E. eapply map_inj with (f := l_target); eauto.
  - apply filter_In. split; auto. now rewrite E.
  - apply filter_In. auto.
Qed.

Lemma good_same w t l l' : good w t -> In l (links t) -> In l' (links t) -> key w l = key w l' -> l = l'.
Proof. intros G. apply map_inj. now apply good_keys. Qed.

(** Distinct subdirectories have nothing in common. *)
Lemma apart w t a b x : good w t -> In a (links t) -> In b (links t) -> l_dir a = l_dir b ->
  is_dir w (l_target a) = true -> is_dir w (l_target b) = true ->
  below t (l_target a) x -> below t (l_target b) x -> a = b.
Proof.
  intros G Ia Ib D Ka Kb Ba Bb. pose proof G as (_ & NL & _).
  assert (H : forall a b, In a (links t) -> In b (links t) -> l_dir a = l_dir b ->
    is_dir w (l_target a) = true -> is_dir w (l_target b) = true -> below t (l_target a) (l_target b) -> a = b).
  { clear a b x Ia Ib D Ka Kb Ba Bb. intros a b Ia Ib D Ka Kb B. inversion B; subst.
    - symmetry. eapply good_dir_once; eauto.
    - exfalso. apply (NL a Ia Ka). rewrite (good_parent w t b G Ib Kb) in H. congruence. }
  destruct (below_linear t _ _ _ Ba Bb) as [B|B]; [now apply H|]. symmetry. now apply H.
Qed.

(** ** An entry gets another name *)

(** The tree is what it was, except that [l] is now [l']. *)
Definition retitled (w : world) (t : tree) (l l' : link) (t' : tree) : Prop :=
  l_dir l' = l_dir l /\ l_target l' = l_target l /\ In l (links t) /\
  (forall x, In x (links t') <-> In x (links t) /\ x <> l \/ x = l') /\
  (forall x, parent t' x = parent t x) /\ (forall x, refs t' x = refs t x).

Lemma link_dec (x l : link) : x = l \/ x <> l.
Proof.
  destruct (inode_eqb (l_dir x) (l_dir l) && str_eqb (l_name x) (l_name l) && inode_eqb (l_target x) (l_target l))%bool eqn:E.
  - left. rewrite !andb_true_iff, !inode_eqb_eq, str_eqb_eq in E. destruct x, l; cbn in *. destruct E as [[-> ->] ->]. reflexivity.
  - right. intros ->. rewrite !inode_eqb_refl in E. rewrite (proj2 (str_eqb_eq _ _) eq_refl) in E. discriminate.
Qed.

Lemma retitled_same w t l : In l (links t) -> retitled w t l l t.
Proof.
  intros I. unfold retitled. splits; auto. intros x. split.
  - intros Ix. destruct (link_dec x l); auto.
  - intros [[Ix _]| ->]; auto.
Qed.

Lemma move_retitles w t d m n c i :
  good w t -> In (mkLink d m i) (links t) -> fold_name w d m = fold_name w d n ->
  (forall x, In x (links t) -> answers w d c x = true -> x = mkLink d m i) ->
  retitled w t (mkLink d m i) (mkLink d c i) (move w t d n d c i) /\ wf_tree w (move w t d n d c i).
Proof.
  intros G I F Free. set (l := mkLink d m i) in *.
  assert (One : forall x, In x (links t) -> answers w d n x = true <-> x = l).
  { intros x Ix. rewrite answers_key. split.
    - intros K. eapply good_same; eauto. rewrite K. unfold key, l. cbn. now rewrite F.
    - intros ->. unfold key, l. cbn. now rewrite F. }
  assert (En : entry w t d n = Some i).
  { apply entry_iff; [now apply (good_keys w)|]. exists l. splits; auto. unfold key, l. cbn. now rewrite F. }
  assert (Pa : forall x, parent (move w t d n d c i) x = parent t x).
  { intros x. apply move_parent; auto. apply G. }
  split.
  - unfold retitled. splits; auto.
    + intros x. unfold move. cbn [links]. rewrite in_map_iff. split.
      * intros (y & E & Iy). destruct (answers w d n y) eqn:A.
        -- apply One in A; auto. subst y. right. now subst x.
        -- subst y. left. split; auto. intros ->. rewrite (proj2 (One l I) eq_refl) in A. discriminate.
      * intros [[Ix N]| ->].
        -- exists x. split; auto. destruct (answers w d n x) eqn:A; auto. now apply One in A.
        -- exists l. split; auto. now rewrite (proj2 (One l I) eq_refl).
    + intros x. apply (nothing_lost_targets t (move w t d n d c i)). apply move_targets.
  - destruct G as ((K1 & K2 & K3 & K4) & _). unfold wf_tree. splits.
    + unfold move. cbn [links]. apply map_nodup; auto. intros a b Ia Ib E.
      destruct (answers w d n a) eqn:A, (answers w d n b) eqn:B; auto.
      * apply One in A, B; auto. congruence.
      * exfalso. assert (X : b = l) by (apply Free; auto; apply answers_key; rewrite <- E; reflexivity).
        apply One in X; auto. congruence.
      * exfalso. assert (X : a = l) by (apply Free; auto; apply answers_key; rewrite E; reflexivity).
        apply One in X; auto. congruence.
    + unfold move. cbn [links]. clear - K2. rename K2 into H.
      replace (map l_target (filter (fun x => is_dir w (l_target x)) (map (fun x => if answers w d n x then mkLink d c (l_target x) else x) (links t))))
        with (map l_target (filter (fun x => is_dir w (l_target x)) (links t))); auto.
      clear H. induction (links t) as [|x ls IH]; auto. cbn [map filter].
      replace (l_target (if answers w d n x then mkLink d c (l_target x) else x)) with (l_target x) by (now destruct (answers w d n x)).
      destruct (is_dir w (l_target x)); auto. cbn [map]. rewrite IH. f_equal. now destruct (answers w d n x).
    + intros x Ix Kx. rewrite Pa. unfold move in Ix. cbn [links] in Ix. apply in_map_iff in Ix. destruct Ix as (y & E & Iy).
      destruct (answers w d n y) eqn:A.
      * subst x. cbn in *. rewrite (K3 y Iy Kx). apply answers_iff in A. tauto.
      * subst x. auto.
    + intros x Ix. unfold move in Ix. cbn [links] in Ix. apply in_map_iff in Ix. destruct Ix as (y & E & Iy).
      destruct (answers w d n y) eqn:A.
      * subst x. cbn. apply answers_iff in A. destruct A as [<- _]. auto.
      * subst x. auto.
Qed.

Lemma stat_same w t t' i : (forall x, refs t' x = refs t x) -> stat_of w t' i = stat_of w t i.
Proof. intros R. unfold stat_of. now rewrite R. Qed.

Lemma retitled_no_loops w t l l' t' : no_loops w t -> retitled w t l l' t' -> no_loops w t'.
Proof.
  intros NL (D & T & I & Li & Pa & _) x Ix K B.
  assert (B' : below t (l_target x) (l_dir x)) by (eapply below_ext; [|exact B]; intros; now rewrite Pa).
  apply Li in Ix. destruct Ix as [[Ix _]| ->]; [now apply (NL x)|]. rewrite T in *. rewrite D in *. now apply (NL l).
Qed.

(** Looking up a name that the retitled entry has nothing to do with. *)
Lemma retitled_lookup w t l l' t' x c :
  good w t -> wf_tree w t' -> retitled w t l l' t' ->
  (x = l_dir l -> fold_name w x c <> fold_name w x (l_name l)) -> 
  (x = l_dir l -> fold_name w x c <> fold_name w x (l_name l')) -> 
  lookup w t' x c = lookup w t x c.
Proof.
  intros G W (D & T & I & Li & Pa & _) H H'. unfold lookup. destruct (is_dir w x && searchable w x)%bool; auto.
  destruct (dot_name c); auto. destruct (dotdot_name c); [now rewrite Pa|].
  assert (E : forall j, entry w t' x c = Some j <-> entry w t x c = Some j).
  { intros j. rewrite !entry_iff by (apply W || now apply (good_keys w)). split; intros (y & Iy & K & Ty); exists y; splits; auto.
    - apply Li in Iy. destruct Iy as [[Iy _]| ->]; auto. exfalso. unfold key in K. injection K as K1 K2.
      apply H'; congruence.
    - apply Li. left. split; auto. intros ->. unfold key in K. injection K as K1 K2. apply H; congruence. }
  destruct (entry w t' x c) as [j|] eqn:E1; [symmetry; now apply E|].
  destruct (entry w t x c) as [j|] eqn:E2; auto. destruct (E j) as [_ X]. discriminate (X eq_refl).
Qed.

Lemma dot_name_iff n : dot_name n = true <-> n = bs ".".
Proof. apply str_eqb_eq. Qed.
Lemma dotdot_name_iff n : dotdot_name n = true <-> n = bs "..".
Proof. apply str_eqb_eq. Qed.

(** What was at rest stays at rest. *)
Lemma retitled_at_rest w o t l l' t' x n :
  good w t -> wf_tree w t' -> retitled w t l l' t' -> settles o -> respects_case w o ->
  fold_name w (l_dir l) (l_name l) = fold_name w (l_dir l) n -> cleans_to o n (l_name l') ->
  In x (links t) -> at_rest w o t x -> at_rest w o t' x.
Proof.
  intros G W Re Se Rc Fn Cl Ix (c & Cx & H). exists c. split; auto. destruct H as [H|[H|(j & Lj & H)]]; auto.
  right. right. exists j. pose proof Re as (D & T & I & Li & Pa & Rf). rewrite (stat_same w t t' _ Rf). split; auto.
  unfold lookup in *. destruct (is_dir w (l_dir x) && searchable w (l_dir x))%bool; [|discriminate].
  destruct (dot_name c); auto. destruct (dotdot_name c); [now rewrite Pa|].
  apply entry_iff in Lj; [|now apply (good_keys w)]. destruct Lj as (y & Iy & K & Ty).
  apply entry_iff; [apply W|].
  destruct (link_dec y l) as [->|N].
  - exists l'. splits; [apply Li; now right| |congruence].
    unfold key in *. injection K as K1 K2. rewrite D, K1. f_equal. rewrite K1 in *. rewrite <- D in *.
    destruct (Se (l_name x) c) as [_ Cc]; auto. { now destruct G as (_ & _ & WN); apply WN. }
    eapply Rc; [exact Cl|exact Cc|]. rewrite <- Fn. congruence.
  - exists y. splits; auto. apply Li. auto.
Qed.
