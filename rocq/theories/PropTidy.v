(** * What a run on a directory leaves behind (C79, C80) *)

From Verif Require Import Base BaseFacts Table BuiltinTables CleanString CleanSpec Filter Spoof SequenceSpec SequenceProofs Filelist
  Prog ProgFacts File FS FileSpec FilelistProofs FileProofs FSProofs RunSpec Play TidySpec TidyProofs TidyProofs6 SteadyPlay
  PropSequence PropFile.

Local Open Scope nat_scope.

(** ** A tree with directories in directories for the examples *)

(** The directory of each directory is the one that has an entry for it. *)
Definition deep_tree (es : list (N * string * N)) : tree :=
  mkTree (links (demo_tree es))
    (fun i => match find (fun l => inode_eqb (l_target l) i) (links (demo_tree es)) with Some l => l_dir l | None => (1, 1)%N end).

Definition deep_state (es : list (N * string * N)) : state := mkState (deep_tree es) (fun _ => None).

Ltac each_link H := cbn in H; repeat (destruct H as [<-|H]; [|]); try contradiction.

Ltac distinct_keys := cbn; repeat (constructor; [cbn; intuition discriminate|]); constructor.

Ltac outside t i x :=
  intros ?B; pose proof (not_below_sound t i x B 9) as ?F; vm_compute in F; discriminate F.

(** "top dir" with a file, a hidden file, a subdirectory with a file and a file whose clean name is in use. *)
Definition deep_files : list (N * string * N) :=
  [en 1 "top dir" 2; en 2 "x y" 10; en 2 ".h h" 11; en 2 "s d" 3; en 3 "p q" 12; en 3 "p_q" 13].

Definition deep_script : list (option str) :=
  [Some (bs "."); Some (bs "x y"); Some (bs ".h h"); Some (bs "x_y"); Some (bs "s d");
   Some (bs "p_q"); Some (bs ".."); Some (bs "p q"); None; None].

Definition deep_run :=
  steady_play demo_world (process_arguments 19 (demo_options false true false 0) [bs "top dir"] None) (deep_state deep_files) 3 deep_script.

Lemma demo_searchable : all_searchable demo_world.
Proof. intros i _. reflexivity. Qed.

Lemma demo_shipped : exists seq, seq_of "default" = Some seq /\ shipped (bs "default") seq.
Proof.
  unfold seq_of. destruct (sequence_choose_default (cf_sequences spoof_config_file) (Some (bs "default"))) as [s0|] eqn:E0.
  2:{ vm_compute in E0. discriminate. }
  destruct (sequence_review None (fun _ => None) s0) as [s1| |] eqn:E1.
  - exists s1. split; [reflexivity|]. exists None, (fun _ => None), s0. auto.
  - exfalso. vm_compute in E0. injection E0 as <-. vm_compute in E1. discriminate.
  - exfalso. vm_compute in E0. injection E0 as <-. vm_compute in E1. discriminate.
Qed.

Lemma demo_settles dry recurse special verbose : settles (demo_options dry recurse special verbose).
Proof.
  destruct demo_shipped as (seq & E & Sh). apply (shipped_settles _ (bs "default") seq); auto. now left.
Qed.

Lemma demo_respects o : respects_case demo_world o.
Proof. apply case_respected. intros d a b E. exact E. Qed.

Lemma deep_wf : wf_tree demo_world (deep_tree deep_files).
Proof.
  unfold wf_tree. splits.
  - distinct_keys.
  - distinct_keys.
  - intros l Il. each_link Il; intros K; try discriminate K; reflexivity.
  - intros l Il. each_link Il; discriminate.
Qed.

Lemma deep_no_loops : no_loops demo_world (deep_tree deep_files).
Proof.
  intros l Il. each_link Il; intros K; try discriminate K.
  - outside (deep_tree deep_files) (1, 2)%N (1, 1)%N.
  - outside (deep_tree deep_files) (1, 3)%N (1, 2)%N.
Qed.

Lemma deep_well_named : well_named (deep_tree deep_files).
Proof. apply well_named_sound. vm_compute. reflexivity. Qed.

Lemma deep_path : path_to demo_world (deep_tree deep_files) (bs "top dir") (1, 2)%N.
Proof.
  unfold path_to. splits.
  - vm_compute. reflexivity.
  - reflexivity.
  - intros j via x c W Ix. vm_compute in W. injection W as <- <-. cbn in Ix. destruct Ix as [Ix|[]]. injection Ix as <- <-.
    right. right. outside (deep_tree deep_files) (1, 2)%N (1, 1)%N.
  - intros d n via P x c Ix. vm_compute in P. injection P as <- <- <-. destruct Ix.
  - intros dir n L. right. assert (E : last_component (bs "top dir") [] (bs "top dir")).
    { split; [reflexivity|]. split; [cbn; intuition discriminate|now left]. }
    destruct (last_component_fun _ _ _ _ _ L E) as [-> ->]. apply file_name_sound. reflexivity.
Qed.

(** ** C79 *)

(** A run on a directory that nothing hinders leaves everything in order that the walk
    enters: each entry is hidden or listed, or neither file nor directory, or has a clean
    name, or its clean name is empty or in use. *)
Theorem C79_everything_in_order :
  forall w fuel o f i ign s tr s' ign',
    all_searchable w -> settles o -> respects_case w o -> o_dry_run o = false -> usable_list ign ->
    wf_tree w (tree_of s) -> no_loops w (tree_of s) -> well_named (tree_of s) -> path_to w (tree_of s) f i ->
    runs (steady_step w) alone (process_arguments fuel o [f] ign) s tr s' (Ret ign') -> Forall (unhindered w) tr ->
    exists q, (q = f \/ In (Ev (Rename f q) None) tr) /\ lstat_inode w (tree_of s') q = Some i /\
      (forall new, ~ would_rename w o (tree_of s') q new) /\ all_in_order w o (items ign) (tree_of s') i.
Proof. exact run_tidies_plain. Qed.
Print Assumptions C79_everything_in_order.

(** With the shipped sequences default, lower and utf_8, where case matters: every entry
    that a recursive walk enters, and that is a file or a directory, is hidden or listed
    or has a portable name, or the portable name is empty or in use. *)
Theorem C79_shipped :
  forall w fuel o name seq f i ign s tr s' ign' l,
    In name [bs "default"; bs "lower"; bs "utf_8"] -> shipped name seq ->
    (name = bs "lower" -> p_ctype (o_platform o) = c_locale) -> o_sequence_to_use o = Some seq ->
    all_searchable w -> (forall d a b, fold_name w d a = fold_name w d b -> a = b) -> o_dry_run o = false -> usable_list ign ->
    wf_tree w (tree_of s) -> no_loops w (tree_of s) -> well_named (tree_of s) -> path_to w (tree_of s) f i ->
    runs (steady_step w) alone (process_arguments fuel o [f] ign) s tr s' (Ret ign') -> Forall (unhindered w) tr ->
    In l (links (tree_of s')) -> entered w o (items ign) (tree_of s') i (l_dir l) ->
    kind_of w (l_target l) = KDir \/ kind_of w (l_target l) = KReg ->
    passed_over (items ign) (l_name l) \/ portable (l_name l) \/
    exists c, cleans_to o (l_name l) c /\ portable c /\
      (c = [] \/ exists j, lookup w (tree_of s') (l_dir l) c = Some j /\
         (j <> l_target l \/ (1 < st_nlink (stat_of w (tree_of s') (l_target l)))%N)).
Proof. exact run_tidies_shipped. Qed.
Print Assumptions C79_shipped.

Example C79_example :
  snd deep_run = Ret None /\
  names_of (tree_of (snd (fst deep_run))) =
    [(1, bs "top_dir", 2); (2, bs "x_y", 10); (2, bs ".h h", 11); (2, bs "s_d", 3); (3, bs "p q", 12); (3, bs "p_q", 13)]%N /\
  all_in_order demo_world (demo_options false true false 0) [] (tree_of (snd (fst deep_run))) (1, 2)%N.
Proof.
  split; [vm_compute; reflexivity|]. split; [vm_compute; reflexivity|].
  destruct (C79_everything_in_order demo_world 19 (demo_options false true false 0) (bs "top dir") (1, 2)%N None (deep_state deep_files)
    (fst (fst deep_run)) (snd (fst deep_run)) None) as (q & _ & _ & _ & A);
    auto using demo_searchable, demo_settles, demo_respects, deep_wf, deep_no_loops, deep_well_named, deep_path; [constructor| |].
  - apply steady_runs. vm_compute. reflexivity.
  - vm_compute. repeat (constructor; [solve [reflexivity | exact I | eexists; reflexivity]|]). constructor.
Qed.

(** ** C80 *)

(** A second run, on the directory under its new name, renames nothing: with any list of
    names to ignore and whatever readdir's order, if there are no listed names below the
    directory for the first run to pass over. *)
Theorem C80_twice_is_once :
  forall w fuel1 fuel2 o f i ign1 ign2 s tr1 s1 r1,
    all_searchable w -> settles o -> respects_case w o -> o_dry_run o = false -> usable_list ign1 ->
    wf_tree w (tree_of s) -> no_loops w (tree_of s) -> well_named (tree_of s) -> path_to w (tree_of s) f i ->
    runs (steady_step w) alone (process_arguments fuel1 o [f] ign1) s tr1 s1 (Ret r1) -> Forall (unhindered w) tr1 ->
    (forall l, In l (links (tree_of s1)) -> below (tree_of s1) i (l_dir l) -> ~ In (l_name l) (items ign1)) ->
    exists q, (q = f \/ In (Ev (Rename f q) None) tr1) /\
      forall s2 tr2 s3 r2, tree_of s2 = tree_of s1 -> usable_list ign2 ->
        runs (steady_step w) alone (process_arguments fuel2 o [q] ign2) s2 tr2 s3 (Ret r2) ->
        tree_of s3 = tree_of s2 /\ no_rename tr2.
Proof. exact run_again. Qed.
Print Assumptions C80_twice_is_once.

(** A tree in order is left as it is, also if calls fail. *)
Theorem C80_order_is_kept :
  forall w fuel o q i ign s tr s' ign',
    all_searchable w -> settles o -> usable_list ign ->
    wf_tree w (tree_of s) -> no_loops w (tree_of s) -> well_named (tree_of s) ->
    lstat_inode w (tree_of s) q = Some i -> kind_of w i = KDir ->
    (forall new, ~ would_rename w o (tree_of s) q new) -> all_in_order w o [] (tree_of s) i ->
    runs (steady_step w) alone (process_arguments fuel o [q] ign) s tr s' (Ret ign') ->
    tree_of s' = tree_of s /\ no_rename tr.
Proof. exact run_idle_plain. Qed.
Print Assumptions C80_order_is_kept.

Example C80_example :
  let again := steady_play demo_world (process_arguments 19 (demo_options false true false 0) [bs "top_dir"] arch_list)
    (snd (fst deep_run)) 3
    [Some (bs "s_d"); Some (bs "p q"); Some (bs "p_q"); None; Some (bs "x_y"); Some (bs ".h h"); None] in
  In (Ev (Rename (bs "top dir") (bs "top_dir")) None) (fst (fst deep_run)) /\
  (exists r, snd again = Ret r) /\ names_of (tree_of (snd (fst again))) = names_of (tree_of (snd (fst deep_run))) /\
  fst (fst again) <> [].
Proof.
  vm_compute. splits.
  - tauto.
  - eexists. reflexivity.
  - reflexivity.
  - discriminate.
Qed.

(** With listed names this is false: after a run that passes over both entries "{arch}",
    a second run that meets them in the other order renames one of them. *)
Definition arch_files : list (N * string * N) := [en 1 "top" 2; en 2 "{arch}" 10; en 2 "a" 3; en 3 "{arch}" 11].

Theorem C80_with_listed_names_refuted :
  exists w fuel o f i s tr1 s1 r1 tr2 s2 r2 old new,
    all_searchable w /\ settles o /\ respects_case w o /\ o_dry_run o = false /\ usable_list arch_list /\
    wf_tree w (tree_of s) /\ no_loops w (tree_of s) /\ well_named (tree_of s) /\ path_to w (tree_of s) f i /\
    runs (steady_step w) alone (process_arguments fuel o [f] arch_list) s tr1 s1 (Ret r1) /\ Forall (unhindered w) tr1 /\
    no_rename tr1 /\
    runs (steady_step w) alone (process_arguments fuel o [f] arch_list) s1 tr2 s2 (Ret r2) /\ Forall (unhindered w) tr2 /\
    In (Ev (Rename old new) None) tr2.
Proof.
  pose (o := demo_options false true false 0).
  pose (run1 := steady_play demo_world (process_arguments 19 o [bs "top"] arch_list) (deep_state arch_files) 3
     [Some (bs "{arch}"); Some (bs "a"); Some (bs "{arch}"); None; None]).
  pose (run2 := steady_play demo_world (process_arguments 19 o [bs "top"] arch_list) (snd (fst run1)) 3
     [Some (bs "a"); Some (bs "{arch}"); None; Some (bs "{arch}"); None]).
  pose (result := fun p : prog (option filelist) => match p with Ret r => r | _ => None end).
  exists demo_world, 19, o, (bs "top"), (1, 2)%N, (deep_state arch_files), (fst (fst run1)), (snd (fst run1)), (result (snd run1)),
    (fst (fst run2)), (snd (fst run2)), (result (snd run2)), (bs "top/{arch}"), (bs "top/arch-").
  splits; auto using demo_searchable, demo_respects.
  - apply demo_settles.
  - eapply usable_put with (f := bs "{arch}"); [apply usable_init | reflexivity].
  - unfold wf_tree. splits; [distinct_keys|distinct_keys| |].
    + intros l Il. each_link Il; intros K; try discriminate K; reflexivity.
    + intros l Il. each_link Il; discriminate.
  - intros l Il. each_link Il; intros K; try discriminate K.
    + outside (deep_tree arch_files) (1, 2)%N (1, 1)%N.
    + outside (deep_tree arch_files) (1, 3)%N (1, 2)%N.
  - apply well_named_sound. vm_compute. reflexivity.
  - unfold path_to. splits.
    + vm_compute. reflexivity.
    + reflexivity.
    + intros j via x c W Ix. vm_compute in W. injection W as <- <-. cbn in Ix. destruct Ix as [Ix|[]]. injection Ix as <- <-.
      right. right. outside (deep_tree arch_files) (1, 2)%N (1, 1)%N.
    + intros d n via P x c Ix. vm_compute in P. injection P as <- <- <-. destruct Ix.
    + intros dir n L. right. assert (E : last_component (bs "top") [] (bs "top")).
      { split; [reflexivity|]. split; [cbn; intuition discriminate|now left]. }
      destruct (last_component_fun _ _ _ _ _ L E) as [-> ->]. apply file_name_sound. reflexivity.
  - apply steady_runs. vm_compute. reflexivity.
  - vm_compute. repeat (constructor; [solve [reflexivity | exact I | eexists; reflexivity]|]). constructor.
  - intros old new. vm_compute. intuition discriminate.
  - apply steady_runs. vm_compute. reflexivity.
  - vm_compute. repeat (constructor; [solve [reflexivity | exact I | eexists; reflexivity]|]). constructor.
  - vm_compute. tauto.
Qed.
Print Assumptions C80_with_listed_names_refuted.
