(** * Proofs about processing files: file systems and walks *)

From Verif Require Import Base BaseFacts CleanString Filter Filelist Prog ProgFacts File FS FileSpec FilelistProofs
  FileProofs FSProofs.

Local Arguments filter_run : simpl never.
Local Arguments sequence_run_filters : simpl never.

(** Look at the next call. *)
Ltac wp_step := apply wp_call; [first [assumption | exact Logic.I] | simpl; eauto | ].

(** ** A single file, with nobody else around *)

Lemma other_file_iff w t i j : is_other_file (stat_of w t i) (stat_of w t j) = false <-> j = i /\ (st_nlink (stat_of w t i) <= 1)%N.
Proof.
  unfold is_other_file. rewrite !orb_false_iff, !negb_false_iff, !N.eqb_eq, N.ltb_ge.
  unfold stat_of at 1 2 3 4. cbn [st_dev st_ino]. destruct i as [a b], j as [c d]; simpl fst; simpl snd.
  split.
  - intros [[-> ->] L]. auto.
  - intros [E L]. injection E as -> ->. auto.
Qed.

Lemma would_free w o t p new : would_rename w o t p new -> proper_rename o p new /\ free_target w t p new.
Proof. intros (P & i & A & B). split; auto. exists i. tauto. Qed.

Section file_fs.
  Variable w : world.
  Variable I : list event -> tree -> Prop.
  Variable J : list event -> tree -> call -> Prop.
  Variable o : options_t.

  Notation wp := (wp (fs_step w) alone I J).

  Hypothesis quiet_J : forall tr t c, match c with Lstat _ | Print _ _ => True | _ => False end -> I tr t -> J tr t c.
  Hypothesis quiet_I : forall tr t c r, match c with Lstat _ | Print _ _ => True | _ => False end -> I tr t -> I (Ev c r :: tr) t.

  Lemma parse_file_fs p (Q : str -> list event -> tree -> Prop) tr t :
    I tr t ->
    (forall tr, I tr t -> Q p tr t) ->
    (forall new tr, would_rename w o t p new -> o_dry_run o = false -> I tr t ->
      J tr t (Rename p new) /\
      (forall m, I (Ev (Rename p new) (Some m) :: tr) t) /\
      (forall t', rename_ok w t p new t' -> I (Ev (Rename p new) None :: tr) t' /\ Q new (Ev (Rename p new) None :: tr) t')) ->
    wp (parse_file p o) Q tr t.
  Proof.
    intros Hi HQ HR. apply (parse_file_wp _ _ _ _ _ (fun tr t1 => I tr t1 /\ t1 = t)); auto.
    { tauto. }
    { intros tr0 s text [H0 _]. now apply quiet_J. }
    { intros tr0 s text s0 r s1 [H0 ->] -> ->. split; [|reflexivity]. now apply quiet_I. }
    { intros tr0 s [H0 ->]. auto. }
    clear tr Hi. intros new tr s [Hi ->] P.
    assert (Print_ret : forall text tr, I tr t -> wp (let! _ := print Stderr text in Ret p) Q tr t).
    { intros text tr0 H0. simpl. splits; auto. intros s0 r s1 -> ->. splits; auto. }
    apply wp_call; auto. intros s0 r s1 -> [-> L].
    destruct (lstat_inode w t p) as [i|] eqn:Li.
    2: { destruct L as (m & ->). apply wp_ret; auto. }
    subst r. apply wp_call; auto. intros s0 r s1 -> [-> L2].
    destruct (match r with inl new => is_other_file (stat_of w t i) new | inr _ => false end) eqn:O.
    { apply Print_ret. auto. }
    assert (F : would_rename w o t p new).
    { split; auto. exists i. split; auto. destruct (lstat_inode w t new) as [j|]; [|auto]. subst r.
      apply other_file_iff in O. destruct O as [-> O]. auto. }
    assert (G : forall tr, I tr t -> wp (if o_dry_run o then Ret p
            else
              let! err := sys (Rename p new) in
              match err with
              | Some message => let! _ := print Stderr (refusal p new message) in Ret p
              | None => Ret new
              end) Q tr t).
    { intros tr1 H1. destruct (o_dry_run o) eqn:D; [now apply wp_ret; auto|].
      destruct (HR new tr1 F eq_refl H1) as (A & B & C).
      apply wp_call; auto. intros s0 r0 s1 -> St. destruct r0 as [m|].
      - simpl in St. subst s1. apply Print_ret. auto.
      - destruct (C s1 St). now apply wp_ret. }
    destruct ((0 <? o_verbose o)%N || o_dry_run o)%bool.
    - apply wp_call; auto. intros s0 r0 s1 -> ->. apply G. auto.
    - simpl. apply G. auto.
  Qed.
End file_fs.

(** A proper rename towards a free target loses nothing. *)
Lemma proper_keeps w o t old new t' :
  proper_rename o old new -> free_target w t old new -> rename_ok w t old new t' -> nothing_lost t t'.
Proof.
  intros (dir & base & clean & L & E & B & _) (i & F1 & F2) R.
  apply (rename_free _ _ _ _ _ R).
  - destruct F2; eauto.
  - now apply (last_not_trailing old dir base).
Qed.

(** ** Nothing is lost, and requests are well founded (C21, C27) *)

Section walk_fs.
  Variable w : world.
  Variable o : options_t.
  Variable t0 : tree.

  Notation I := (fun (_ : list event) (t : tree) => nothing_lost t0 t).
  Notation J := (fun (_ : list event) => sound_request w o).
  Notation wp := (wp (fs_step w) alone I J).

  (** The paths handed to parse_file. *)
  Definition may_process (t : tree) (p : str) : Prop :=
    o_special o = false -> forall i, lstat_inode w t p = Some i -> kind_of w i = KDir \/ kind_of w i = KReg.

  Lemma parse_file_sound p tr t :
    nothing_lost t0 t -> may_process t p -> wp (parse_file p o) (fun _ _ t => nothing_lost t0 t) tr t.
  Proof.
    intros Hi M. apply parse_file_fs; auto.
    - intros ? ? [] H _; simpl in *; tauto.
    - intros new tr1 F D _. splits; auto.
      + simpl. splits; auto. intros S. destruct F as (_ & i & F & _). exists i. split; auto.
      + intros t' R. destruct (would_free _ _ _ _ _ F) as [P F']. pose proof (proper_keeps _ _ _ _ _ _ P F' R).
        split; eapply nothing_lost_trans; eauto.
  Qed.

  Lemma stat_dir t i : isdir (stat_of w t i) = true <-> kind_of w i = KDir.
  Proof. unfold isdir, stat_of. simpl. destruct (kind_of w i); split; congruence. Qed.

  Lemma stat_reg t i : isreg (stat_of w t i) = true <-> kind_of w i = KReg.
  Proof. unfold isreg, stat_of. simpl. destruct (kind_of w i); split; congruence. Qed.

  Lemma lstat_may t p (st : stat) (r : stat + str) :
    match lstat_inode w t p with Some i => r = inl (stat_of w t i) | None => exists m, r = inr m end ->
    (isdir (match r with inl x => x | inr _ => st end) || isreg (match r with inl x => x | inr _ => st end) || o_special o = true)%bool ->
    may_process t p.
  Proof.
    intros L K S i Li. rewrite Li in L. subst r. rewrite S in K.
    rewrite orb_false_r in K. apply orb_true_iff in K. rewrite stat_dir, stat_reg in K. exact K.
  Qed.

  Lemma walk_sound fuel :
    (forall filename ign tr t, nothing_lost t0 t -> wp (parse_dir fuel o filename ign) (fun _ _ t => nothing_lost t0 t) tr t) /\
    (forall filename h st ign tr t, nothing_lost t0 t -> wp (dir_loop fuel o filename h st ign) (fun _ _ t => nothing_lost t0 t) tr t).
  Proof.
    induction fuel as [|fuel [IHd IHl]].
    - split; intros; simpl; auto.
    - split.
      + intros filename ign tr t Hi. cbn [parse_dir]. wp_step.
        intros s0 r s1 -> [-> L]. destruct r as [st|m]; [|now apply wp_ret].
        destruct (negb (isdir st)) eqn:D; [now apply wp_ret|].
        apply negb_false_iff in D.
        destruct (lstat_inode w t filename) as [i|] eqn:Li; [|destruct L; discriminate].
        injection L as ->. apply stat_dir in D.
        wp_step. intros s0 r s1 -> [-> L2]. destruct r as [h|em m].
        * apply wp_bind. eapply wp_mono; [|apply IHl; assumption]. cbv beta.
          intros ign' tr3 s3 _ H3. wp_step. intros s0 r s1 -> ->. now apply wp_ret.
        * wp_step. intros s0 r s1 -> ->. destruct em; simpl; auto.
      + intros filename h st ign tr t Hi. cbn [dir_loop]. wp_step.
        intros s0 r s1 -> [-> L]. destruct r as [n|]; [|now apply wp_ret].
        apply wp_bind, wp_lift; auto. intros [ig ign1] _.
        destruct ig; [now apply IHl|].
        wp_step. intros s0 r s1 -> [-> L2]. cbv zeta.
        apply wp_bind.
        eapply wp_mono with (Q := fun _ _ t => nothing_lost t0 t).
        { intros ign2 tr3 s3 _ H3. now apply IHl. }
        pose proof (lstat_may _ _ st r L2) as M.
        set (st1 := match r with inl x => x | inr _ => st end) in *.
        destruct (isdir st1).
        * apply wp_bind. eapply wp_mono; [|apply parse_file_sound; auto]. cbv beta.
          intros work tr3 s3 _ H3. destruct (o_recurse o); [now apply IHd | now apply wp_ret].
        * simpl in M. destruct (isreg st1 || o_special o)%bool; [|now apply wp_ret].
          apply wp_bind. eapply wp_mono; [|apply parse_file_sound; auto]. cbv beta.
          intros work tr3 s3 _ H3. now apply wp_ret.
  Qed.

  Lemma argument_sound fuel f ign tr t :
    nothing_lost t0 t -> wp (process_argument fuel o f ign) (fun _ _ t => nothing_lost t0 t) tr t.
  Proof.
    intros Hi. unfold process_argument.
    assert (G : forall tr t, nothing_lost t0 t -> wp
      (let! st := sys (Lstat f) in
       match st with
       | inr message => let! _ := print Stderr (f ++ bs ": " ++ message ++ [Nb 10]) in Ret ign
       | inl st =>
         if isdir st then let! work := parse_file f o in parse_dir fuel o work ign
         else if (isreg st || o_special o)%bool then let! _ := parse_file f o in Ret ign
         else Ret ign
       end) (fun _ _ t => nothing_lost t0 t) tr t).
    { clear tr t Hi. intros tr t Hi. wp_step. intros s0 r s1 -> [-> L2].
      pose proof (lstat_may _ _ (mkStat 0 0 0 SOther) r L2) as M. destruct r as [st|m].
      - destruct (isdir st).
        + apply wp_bind. eapply wp_mono; [|apply parse_file_sound; auto]. cbv beta.
          intros work tr2 s2 _ H2. now apply walk_sound.
        + simpl in M. destruct (isreg st || o_special o)%bool; [|now apply wp_ret].
          apply wp_bind. eapply wp_mono; [|apply parse_file_sound; auto]. cbv beta.
          intros work tr2 s2 _ H2. now apply wp_ret.
      - wp_step. intros s0 r s1 -> ->. now apply wp_ret. }
    destruct (0 <? o_verbose o)%N; [|now apply G].
    wp_step. intros s0 r s1 -> ->. now apply G.
  Qed.

  Lemma arguments_sound fuel files : forall ign tr t,
    nothing_lost t0 t -> wp (process_arguments fuel o files ign) (fun _ _ t => nothing_lost t0 t) tr t.
  Proof.
    induction files as [|f files IH]; intros ign tr t Hi; cbn [process_arguments].
    - now apply wp_ret.
    - apply wp_bind. eapply wp_mono; [|apply argument_sound; assumption]. cbv beta.
      intros ign' tr1 s1 _ H1. now apply IH.
  Qed.
End walk_fs.

Lemma run_keeps w fuel o files ign t tr t' p' :
  runs (fs_step w) alone (process_arguments fuel o files ign) t tr t' p' -> nothing_lost t t'.
Proof.
  intros R. pose proof (arguments_sound w o t fuel files ign [] t (nothing_lost_refl t)) as W.
  now apply (runs_inv _ _ _ _ _ _ _ _ _ _ W) in R.
Qed.

Lemma run_requests w fuel o files ign t tr t' c k :
  runs (fs_step w) alone (process_arguments fuel o files ign) t tr t' (Call c k) -> sound_request w o t' c.
Proof.
  intros R. pose proof (arguments_sound w o t fuel files ign [] t (nothing_lost_refl t)) as W.
  now apply (runs_pending _ _ _ _ _ _ _ _ _ _ _ W) in R.
Qed.

(** ** Which paths a walk touches (C25, C27) *)

Definition extends (tr' tr : list event) : Prop := exists x, tr' = x ++ tr.

Lemma extends_refl tr : extends tr tr.
Proof. now exists []. Qed.

Lemma extends_cons e tr' tr : extends tr' tr -> extends (e :: tr') tr.
Proof. intros (x & ->). now exists (e :: x). Qed.

Lemma extends_trans a b c : extends a b -> extends b c -> extends a c.
Proof. intros (x & ->) (y & ->). exists (x ++ y). now rewrite app_assoc. Qed.

Lemma extends_in tr' tr e : extends tr' tr -> In e tr -> In e tr'.
Proof. intros (x & ->) H. apply in_app_iff. auto. Qed.

Lemma walked_incl start tr tr' p : incl tr tr' -> walked start tr p -> walked start tr' p.
Proof.
  intros E. induction 1 as [|top h n p W IH O R H M]; [constructor|].
  apply (walked_entry start tr' top h n p); auto.
  destruct M as [M|M]; [auto | right; auto].
Qed.

Lemma walked_extends start tr tr' p : extends tr' tr -> walked start tr p -> walked start tr' p.
Proof. intros E. apply walked_incl. intros e. now apply extends_in. Qed.

Lemma entry_path_name top n : file_name n -> entry_path top n = top ++ bs "/" ++ n.
Proof.
  intros (_ & _ & _ & L). unfold entry_path. apply firstn_all2. rewrite !app_length. simpl. lia.
Qed.

Local Hint Resolve extends_refl extends_cons extends_trans : core.

Section walk_trace.
  Context {S : Type}.
  Variable step : S -> forall c, answer c -> S -> Prop.
  Variable interference : S -> S -> Prop.
  Hypothesis names : honest_names step.
  Variable o : options_t.
  Variable start : str.

  Notation I := (fun (_ : list event) (_ : S) => True).

  (** What holds when a call is about to be issued by the walk. *)
  Definition on_walk (tr : list event) (s : S) (c : call) : Prop :=
    match c with
    | Rename old new => exists top n, walked start tr top /\ met tr top n old /\ ~ hidden n /\
        (o_recurse o = false -> top = start)
    | Opendir p => walked start tr p /\ (o_recurse o = false -> p = start)
    | _ => True
    end.

  Notation wp J := (wp step interference I J).

  Lemma parse_file_extends (J : list event -> S -> call -> Prop) p tr s :
    (forall tr s q, J tr s (Lstat q)) -> (forall tr s out x, J tr s (Print out x)) ->
    (forall tr' s new, extends tr' tr -> J tr' s (Rename p new)) ->
    wp J (parse_file p o) (fun q tr' _ => extends tr' tr /\ (q = p \/ In (Ev (Rename p q) None) tr')) tr s.
  Proof.
    intros QL QP H. apply (parse_file_wp _ _ _ _ _ (fun tr' _ => extends tr' tr)); auto.
    clear s. intros new tr0 s E0 _.
    wp_step. intros s0 r s1 _ _. destruct r as [old|m]; [|apply wp_ret; auto].
    wp_step. intros s2 r s3 _ _.
    destruct (match r with inl new => is_other_file old new | inr _ => false end).
    { wp_step. intros s4 r0 s5 _ _. apply wp_ret; auto. }
    assert (G : forall tr' s, extends tr' tr -> wp J
      (if o_dry_run o then Ret p
       else let! err := sys (Rename p new) in
            match err with
            | Some message => let! _ := print Stderr (refusal p new message) in Ret p
            | None => Ret new
            end) (fun q tr' _ => extends tr' tr /\ (q = p \/ In (Ev (Rename p q) None) tr')) tr' s).
    { intros tr' s' E. destruct (o_dry_run o); [apply wp_ret; auto|].
      wp_step. intros s4 r0 s5 _ _. destruct r0 as [m|].
      - wp_step. intros s6 r0 s7 _ _. apply wp_ret; auto.
      - apply wp_ret; auto. split; auto. right. now left. }
    destruct ((0 <? o_verbose o)%N || o_dry_run o)%bool.
    - wp_step. intros s4 r0 s5 _ _. apply G. auto.
    - apply G. auto.
  Qed.

  Lemma walk_on fuel :
    (forall filename ign tr s, walked start tr filename -> (o_recurse o = false -> filename = start) ->
       wp on_walk (parse_dir fuel o filename ign) (fun _ tr' _ => extends tr' tr) tr s) /\
    (forall filename h st ign tr s, walked start tr filename -> (o_recurse o = false -> filename = start) ->
       In (Ev (Opendir filename) (Opened h)) tr ->
       wp on_walk (dir_loop fuel o filename h st ign) (fun _ tr' _ => extends tr' tr) tr s).
  Proof.
    induction fuel as [|fuel [IHd IHl]].
    - split; intros; simpl; auto.
    - split.
      + intros filename ign tr s W Rc. cbn [parse_dir]. apply wp_call; [exact Logic.I|exact Logic.I|].
        intros s0 r s1 _ _. destruct r as [st|m]; [|apply wp_ret; auto].
        destruct (negb (isdir st)); [apply wp_ret; auto|].
        apply wp_call; [exact Logic.I| |].
        { simpl. split; auto. eapply walked_extends; [|eassumption]; eauto. }
        intros s2 r s3 _ _. destruct r as [h|em m].
        * apply wp_bind. eapply wp_mono; [|apply IHl; [eapply walked_extends; [|eassumption]; eauto | assumption | now left]]. cbv beta.
          intros ign' tr3 s4 _ H3. apply wp_call; [exact Logic.I|exact Logic.I|]. intros s5 r s6 _ _. apply wp_ret; auto.
          eauto.
        * apply wp_call; [exact Logic.I|exact Logic.I|]. intros s4 r s5 _ _. destruct em; simpl; auto.
      + intros filename h st ign tr s W Rc O. cbn [dir_loop]. apply wp_call; [exact Logic.I|exact Logic.I|].
        intros s0 r s1 _ St. destruct r as [n|]; [|apply wp_ret; auto].
        apply names in St. rename St into Nm.
        apply wp_bind, wp_lift; auto. intros [ig ign1] Eig.
        assert (W1 : walked start (Ev (Readdir h) (Some n) :: tr) filename) by (eapply walked_extends; [|eassumption]; eauto).
        assert (O1 : In (Ev (Opendir filename) (Opened h)) (Ev (Readdir h) (Some n) :: tr)) by (now right).
        assert (N1 : In (Ev (Readdir h) (Some n)) (Ev (Readdir h) (Some n) :: tr)) by (now left).
        set (tr1 := Ev (Readdir h) (Some n) :: tr) in *.
        assert (E1 : extends tr1 tr) by (subst tr1; auto).
        clearbody tr1.
        destruct ig.
        { eapply wp_mono; [|apply IHl; auto]. cbv beta. intros; eauto. }
        assert (Hn : ~ hidden n).
        { intros Hn. rewrite (ignore_file_hidden _ _ Hn) in Eig. discriminate. }
        apply wp_call; [exact Logic.I|exact Logic.I|]. intros s2 r s3 _ _. cbv zeta.
        rewrite (entry_path_name _ _ Nm).
        set (p := filename ++ bs "/" ++ n) in *.
        set (e := Ev (Lstat p) r). clearbody e.
        apply wp_bind.
        eapply wp_mono with (Q := fun _ tr' _ => extends tr' tr1).
        { intros ign2 tr3 s4 _ H3. eapply wp_mono; [|apply IHl; auto].
          - cbv beta. intros; eauto.
          - eapply walked_extends; [|eassumption]; eauto.
          - eapply extends_in; [|eassumption]; eauto. }
        assert (F : forall s, wp on_walk (parse_file p o)
           (fun q tr' _ => extends tr' (e :: tr1) /\ (q = p \/ In (Ev (Rename p q) None) tr')) (e :: tr1) s).
        { intros s'. apply parse_file_extends; try (intros; exact Logic.I).
          intros tr' s'' new E. simpl. exists filename, n. splits; auto.
          - eapply walked_extends; [|eassumption]. eauto.
          - exists h. splits; auto; (eapply extends_in; [|eassumption]; eauto). }
        destruct (isdir (match r with inl x => x | inr _ => st end)).
        * apply wp_bind. eapply wp_mono; [|apply F]. cbv beta.
          intros work tr3 s4 _ (E3 & M). destruct (o_recurse o) eqn:Rec; [|apply wp_ret; eauto].
          assert (E31 : extends tr3 tr1) by eauto.
          eapply wp_mono; [|apply IHd].
          -- cbv beta. intros; eauto.
          -- apply (walked_entry start tr3 filename h n work); auto.
             ++ eapply walked_extends; [|eassumption]; eauto.
             ++ eapply extends_in; [|eassumption]; eauto.
             ++ eapply extends_in; [|eassumption]; eauto.
          -- discriminate.
        * destruct (isreg _ || o_special o)%bool; [|apply wp_ret; eauto].
          apply wp_bind. eapply wp_mono; [|apply F]. cbv beta.
          intros work tr3 s4 _ (E3 & M). apply wp_ret; eauto.
  Qed.

  Lemma walk_requests fuel ign s tr s' c k :
    runs step interference (parse_dir fuel o start ign) s tr s' (Call c k) -> on_walk tr s' c.
  Proof.
    intros R.
    pose proof (proj1 (walk_on fuel) start ign [] s (walked_start _ _) (fun _ => eq_refl)) as W.
    apply (runs_pending _ _ _ _ _ _ _ _ _ _ _ W) in R.
    assert (IN : incl (rev tr) tr) by (intros x; now rewrite <- in_rev).
    destruct c; simpl in *; auto.
    - destruct R as (top & n & W1 & (h & M1 & M2 & ->) & H & D). exists top, n. splits; auto.
      + eapply walked_incl; eauto.
      + exists h. splits; auto.
    - destruct R as (W1 & D). split; auto. eapply walked_incl; eauto.
  Qed.
End walk_trace.

(** ** The arguments (C27) *)

Section arguments_trace.
  Context {S : Type}.
  Variable step : S -> forall c, answer c -> S -> Prop.
  Variable interference : S -> S -> Prop.
  Hypothesis names : honest_names step.
  Variable o : options_t.
  Variable files : list str.

  Notation I := (fun (_ : list event) (_ : S) => True).

  (** [start] is argument [f], or what it was renamed to. *)
  Definition argument (tr : list event) (f start : str) : Prop :=
    In f files /\ (start = f \/ In (Ev (Rename f start) None) tr).

  Definition on_arguments (tr : list event) (s : S) (c : call) : Prop :=
    match c with
    | Rename old new => In old files \/ exists f start, argument tr f start /\ on_walk o start tr s c
    | Opendir p => exists f start, argument tr f start /\ on_walk o start tr s c
    | _ => True
    end.

  Lemma argument_incl tr tr' f start : incl tr tr' -> argument tr f start -> argument tr' f start.
  Proof. intros E (A & B). split; auto. destruct B; auto. Qed.

  Lemma wp_weaken_J {A} (J J' : list event -> S -> call -> Prop) (p : prog A) (Q : A -> list event -> S -> Prop) tr s :
    (forall tr' s c, extends tr' tr -> J tr' s c -> J' tr' s c) ->
    wp step interference I J p Q tr s -> wp step interference I J' p Q tr s.
  Proof.
    revert tr s. induction p as [a|x|c k IH]; intros tr s H W; simpl in *; auto.
    destruct W as (_ & Wj & W). splits; auto. intros s0 r s1 E St. apply IH.
    - intros tr' s' c' E'. apply H. eauto.
    - now apply W with s0.
  Qed.

  Lemma argument_on fuel f ign tr s :
    In f files -> wp step interference I on_arguments (process_argument fuel o f ign) (fun _ _ _ => True) tr s.
  Proof.
    intros Hf. unfold process_argument.
    assert (F : forall tr s, wp step interference I on_arguments (parse_file f o)
           (fun q tr' _ => extends tr' tr /\ (q = f \/ In (Ev (Rename f q) None) tr')) tr s).
    { intros tr' s'. apply parse_file_extends; try (intros; exact Logic.I).
      intros tr2 s'' new E. simpl. auto. }
    assert (G : forall tr s, wp step interference I on_arguments
      (let! st := sys (Lstat f) in
       match st with
       | inr message => let! _ := print Stderr (f ++ bs ": " ++ message ++ [Nb 10]) in Ret ign
       | inl st =>
         if isdir st then let! work := parse_file f o in parse_dir fuel o work ign
         else if (isreg st || o_special o)%bool then let! _ := parse_file f o in Ret ign
         else Ret ign
       end) (fun _ _ _ => True) tr s).
    { clear tr s. intros tr s. apply wp_call; [exact Logic.I|exact Logic.I|]. intros s0 r s1 _ _. destruct r as [st|m].
      - destruct (isdir st).
        + apply wp_bind. eapply wp_mono; [|apply F]. cbv beta.
          intros work tr2 s2 _ (E & M).
          assert (A : argument tr2 f work) by (split; auto).
          apply wp_weaken_J with (J := on_walk o work).
          * intros tr3 s3 c E3 H. assert (In3 : incl tr2 tr3) by (intros x; now apply extends_in).
            destruct c; simpl; auto.
            -- right. exists f, work. split; auto. eapply argument_incl; eauto.
            -- exists f, work. split; auto. eapply argument_incl; eauto.
          * eapply wp_mono; [|apply walk_on; auto; constructor]. auto.
        + destruct (isreg st || o_special o)%bool; [|apply wp_ret; auto].
          apply wp_bind. eapply wp_mono; [|apply F]. cbv beta.
          intros work tr2 s2 _ _. apply wp_ret; auto.
      - apply wp_call; [exact Logic.I|exact Logic.I|]. intros s2 r s3 _ _. apply wp_ret; auto. }
    destruct (0 <? o_verbose o)%N; [|apply G].
    apply wp_call; [exact Logic.I|exact Logic.I|]. intros s0 r s1 _ _. apply G.
  Qed.

  Lemma arguments_on fuel fs : forall ign tr s,
    incl fs files -> wp step interference I on_arguments (process_arguments fuel o fs ign) (fun _ _ _ => True) tr s.
  Proof.
    induction fs as [|f fs IH]; intros ign tr s E; cbn [process_arguments].
    - apply wp_ret; auto.
    - apply wp_bind. eapply wp_mono; [|apply argument_on; apply E; now left]. cbv beta.
      intros ign' tr1 s1 _ _. apply IH. intros x Hx. apply E. now right.
  Qed.

  Lemma arguments_requests fuel ign s tr s' c k :
    runs step interference (process_arguments fuel o files ign) s tr s' (Call c k) -> on_arguments tr s' c.
  Proof.
    intros R.
    pose proof (arguments_on fuel files ign [] s (incl_refl _)) as W.
    apply (runs_pending _ _ _ _ _ _ _ _ _ _ _ W) in R.
    assert (IN : incl (rev tr) tr) by (intros x; now rewrite <- in_rev).
    destruct c; simpl in *; auto.
    - destruct R as [R|(f & st & A & top & n & W1 & (h & M1 & M2 & ->) & H & D)]; auto. right.
      exists f, st. split; [eapply argument_incl; eauto|].
      exists top, n. splits; auto.
      + eapply walked_incl; eauto.
      + exists h. splits; auto.
    - destruct R as (f & st & A & W1 & D). exists f, st. split; [eapply argument_incl; eauto|].
      split; auto. eapply walked_incl; eauto.
  Qed.
End arguments_trace.
