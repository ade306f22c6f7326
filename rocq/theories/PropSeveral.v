(** * What a run on several arguments leaves behind (C102) *)

From Verif Require Import Base BaseFacts Table BuiltinTables CleanString CleanSpec Filter Spoof SequenceSpec SequenceProofs Filelist
  Prog ProgFacts File FS FSProofs FileSpec FilelistProofs FileProofs RunSpec Play TidySpec TidyProofs TidyProofs5 TidyProofs6 TidyProofs7 SteadyPlay SeveralSpec
  PropSequence PropFile PropTidy.

Local Open Scope nat_scope.

(** ** C102 *)

(** Files and directories in any order, none of them in another one or on the way to another
    one: after a run that nothing hinders there is nothing left to do for any of them.  Each is
    where its path, or the path it was renamed to, leads; it would not be renamed again; and
    if it is a directory, everything is in order that the walk enters.  What is done for a
    later argument spoils nothing of this for an earlier one. *)
Theorem C102_in_order :
  forall w fuel o args ign s tr s' ign',
    all_searchable w -> settles o -> respects_case w o -> o_dry_run o = false -> usable_list ign ->
    wf_tree w (tree_of s) -> no_loops w (tree_of s) -> well_named (tree_of s) -> separate w o (tree_of s) args ->
    runs (steady_step w) alone (process_arguments fuel o (map fst args) ign) s tr s' (Ret ign') -> Forall (unhindered w) tr ->
    exists qs, Forall2 (fun arg q => (q = fst arg \/ In (Ev (Rename (fst arg) q) None) tr) /\ settled w o (items ign) (tree_of s') q (snd arg)) args qs.
Proof. exact run_several_plain. Qed.
Print Assumptions C102_in_order.

(** A second run on all or some of them, in any order and under their new names, renames
    nothing, if the first one did not pass over listed names. *)
Theorem C102_twice_is_once :
  forall w fuel1 fuel2 o args ign1 ign2 s tr1 s1 r1,
    all_searchable w -> settles o -> respects_case w o -> o_dry_run o = false -> usable_list ign1 ->
    wf_tree w (tree_of s) -> no_loops w (tree_of s) -> well_named (tree_of s) -> separate w o (tree_of s) args ->
    runs (steady_step w) alone (process_arguments fuel1 o (map fst args) ign1) s tr1 s1 (Ret r1) -> Forall (unhindered w) tr1 ->
    (forall i l, In i (map snd args) -> In l (links (tree_of s1)) -> below (tree_of s1) i (l_dir l) -> ~ In (l_name l) (items ign1)) ->
    exists qs, Forall2 (fun arg q => q = fst arg \/ In (Ev (Rename (fst arg) q) None) tr1) args qs /\
      forall fs s2 tr2 s3 r2, incl fs qs -> tree_of s2 = tree_of s1 -> usable_list ign2 ->
        runs (steady_step w) alone (process_arguments fuel2 o fs ign2) s2 tr2 s3 (Ret r2) ->
        tree_of s3 = tree_of s2 /\ no_rename tr2.
Proof. exact run_several_again. Qed.
Print Assumptions C102_twice_is_once.

(** Whatever is given: if there is nothing to do for any argument, nothing is done. *)
Theorem C102_order_is_kept :
  forall w fuel o fs ign s tr s' ign',
    all_searchable w -> settles o -> usable_list ign ->
    wf_tree w (tree_of s) -> no_loops w (tree_of s) -> well_named (tree_of s) ->
    (forall q, In q fs -> (forall new, ~ would_rename w o (tree_of s) q new) /\
       forall i, lstat_inode w (tree_of s) q = Some i -> kind_of w i = KDir -> all_in_order w o [] (tree_of s) i) ->
    runs (steady_step w) alone (process_arguments fuel o fs ign) s tr s' (Ret ign') ->
    tree_of s' = tree_of s /\ no_rename tr.
Proof. exact run_several_idle_plain. Qed.
Print Assumptions C102_order_is_kept.

(** ** Examples *)

(** Two directories and two files next to each other; one of the files has the name that the
    other one would get *)
Definition several_files : list (N * string * N) :=
  [en 1 "top dir" 2; en 2 "x y" 10; en 1 "a b" 11; en 1 "a_b" 12; en 1 "s d" 3; en 3 "p q" 13; en 1 "c d" 14].

Definition several_arguments : list (str * inode) :=
  [(bs "a b", (1, 11)); (bs "top dir", (1, 2)); (bs "c d", (1, 14)); (bs "s d", (1, 3)); (bs "a_b", (1, 12))]%N.

Definition several_run :=
  steady_play demo_world (process_arguments 19 (demo_options false true false 0) (map fst several_arguments) None) (deep_state several_files) 3
    [Some (bs "x y"); None; Some (bs "p q"); None].

Lemma several_wf : wf_tree demo_world (deep_tree several_files).
Proof.
  unfold wf_tree. splits.
  - distinct_keys.
  - distinct_keys.
  - intros l Il. each_link Il; intros K; try discriminate K; reflexivity.
  - intros l Il. each_link Il; discriminate.
Qed.

Lemma several_no_loops : no_loops demo_world (deep_tree several_files).
Proof.
  intros l Il. each_link Il; intros K; try discriminate K.
  - outside (deep_tree several_files) (1, 2)%N (1, 1)%N.
  - outside (deep_tree several_files) (1, 3)%N (1, 1)%N.
Qed.

Lemma several_separate : separate demo_world (demo_options false true false 0) (deep_tree several_files) several_arguments.
Proof.
  split; [distinct_keys|]. intros p i H.
  cbn in H. repeat (destruct H as [H|H]; [injection H as <- <-|]); try contradiction;
    (split; [first [left; reflexivity|right; left; reflexivity]|]);
    match goal with |- stands _ _ _ ?p _ => exists [], p, (1, 1)%N, [] end;
    (unfold stands_at; splits;
       [split; [reflexivity|split; [cbn; intuition discriminate|now left]]
       |apply file_name_sound; reflexivity|discriminate|discriminate|reflexivity|reflexivity|vm_compute; reflexivity
       |intros k Ik; split; [|intros x c []]; cbn in Ik; repeat (destruct Ik as [<-|Ik]; [|]); try contradiction;
        intros [K B]; try discriminate K; revert B]).
  all: match goal with |- below _ ?a ?b -> _ => outside (deep_tree several_files) a b end.
Qed.

Example C102_example :
  snd several_run = Ret None /\
  names_of (tree_of (snd (fst several_run))) =
    [(1, bs "top_dir", 2); (2, bs "x_y", 10); (1, bs "a b", 11); (1, bs "a_b", 12); (1, bs "s_d", 3); (3, bs "p_q", 13); (1, bs "c_d", 14)]%N /\
  exists qs, Forall2 (fun arg q => (q = fst arg \/ In (Ev (Rename (fst arg) q) None) (fst (fst several_run))) /\
                                  settled demo_world (demo_options false true false 0) [] (tree_of (snd (fst several_run))) q (snd arg)) several_arguments qs.
Proof.
  split; [vm_compute; reflexivity|]. split; [vm_compute; reflexivity|].
  apply (C102_in_order demo_world 19 (demo_options false true false 0) several_arguments None (deep_state several_files)
    (fst (fst several_run)) (snd (fst several_run)) None);
    auto using demo_searchable, demo_settles, demo_respects, several_wf, several_no_loops, several_separate; [constructor| | |].
  - apply well_named_sound. vm_compute. reflexivity.
  - apply steady_runs. vm_compute. reflexivity.
  - vm_compute. repeat (constructor; [solve [reflexivity | exact I | eexists; reflexivity]|]). constructor.
Qed.

(** For arguments that are not separate this is false: when a directory is renamed, the path of
    a later argument in it leads nowhere, and its file is left as it is. *)
Definition nested_files : list (N * string * N) := [en 1 "top dir" 2; en 2 "sub" 3; en 3 "p q" 12].

Theorem C102_any_arguments_refuted :
  exists w fuel o f g i s tr s' r,
    all_searchable w /\ settles o /\ respects_case w o /\ o_dry_run o = false /\
    wf_tree w (tree_of s) /\ no_loops w (tree_of s) /\ well_named (tree_of s) /\
    lstat_inode w (tree_of s) g = Some i /\ kind_of w i = KReg /\
    runs (steady_step w) alone (process_arguments fuel o [f; g] None) s tr s' (Ret r) /\ Forall (unhindered w) tr /\
    exists l, In l (links (tree_of s')) /\ l_target l = i /\ ~ at_rest w o (tree_of s') l.
Proof.
  pose (o := demo_options false false false 0).
  pose (run := steady_play demo_world (process_arguments 19 o [bs "top dir"; bs "top dir/sub/p q"] None) (deep_state nested_files) 3 [Some (bs "sub"); None]).
  exists demo_world, 19, o, (bs "top dir"), (bs "top dir/sub/p q"), (1, 12)%N, (deep_state nested_files), (fst (fst run)), (snd (fst run)), None.
  splits; auto using demo_searchable, demo_respects.
  - apply demo_settles.
  - unfold wf_tree. splits; [distinct_keys|distinct_keys| |].
    + intros l Il. each_link Il; intros K; try discriminate K; reflexivity.
    + intros l Il. each_link Il; discriminate.
  - intros l Il. each_link Il; intros K; try discriminate K.
    + outside (deep_tree nested_files) (1, 2)%N (1, 1)%N.
    + outside (deep_tree nested_files) (1, 3)%N (1, 2)%N.
  - apply well_named_sound. vm_compute. reflexivity.
  - apply steady_runs. vm_compute. reflexivity.
  - vm_compute. repeat (constructor; [solve [reflexivity | exact I | eexists; reflexivity]|]). constructor.
  - exists (mkLink (1, 3)%N (bs "p q") (1, 12)%N). splits; [vm_compute; tauto|reflexivity|].
    intros (c & C & H). vm_compute in C. injection C as <-. destruct H as [H|[H|(j & L & _)]].
    + discriminate H.
    + discriminate H.
    + vm_compute in L. discriminate L.
Qed.
Print Assumptions C102_any_arguments_refuted.
