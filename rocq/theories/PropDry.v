(** * What a dry run announces (C105) *)

From Verif Require Import Base BaseFacts Table BuiltinTables CleanString CleanSpec Filter Spoof SequenceSpec SequenceProofs Filelist
  Prog ProgFacts File FS FSProofs FileSpec FilelistProofs FileProofs RunSpec Play TidySpec SteadyPlay DrySpec DryProofs
  PropSequence PropFile PropTidy PropSeveral.

Local Open Scope nat_scope.

(** ** C105 *)

(** A dry run prints, besides the lines "Scanning: ...", the line "p -> q" for every path that it
    comes to and that would be renamed in the tree as it is, and no others; for any arguments, if
    no entry has a name to be ignored. *)
Theorem C105_what_is_announced :
  forall w fuel o fs ign s tr s' l,
    all_searchable w -> wf_tree w (tree_of s) -> no_loops w (tree_of s) -> well_named (tree_of s) -> o_dry_run o = true ->
    usable_list ign -> (forall x, In x (links (tree_of s)) -> ~ In (l_name x) (items ign)) ->
    runs (steady_step w) alone (process_arguments fuel o fs ign) s tr s' (Ret l) -> Forall (unhindered w) tr ->
    tree_of s' = tree_of s /\ forall text, printed tr text <->
      (0 < o_verbose o)%N /\ (exists f, In f fs /\ text = bs "Scanning: " ++ f ++ [Nb 10]) \/
      (exists p q, come_to w o (tree_of s) fs p /\ would_rename w o (tree_of s) p q /\ text = arrow p q).
Proof. exact dry_run_says. Qed.
Print Assumptions C105_what_is_announced.

(** A dry run is silent exactly if a run in earnest on the same tree renames nothing. *)
Theorem C105_silent_iff_nothing_to_do :
  forall w fuel1 fuel2 o fs ign1 ign2 s1 tr1 s1' l1 s2 tr2 s2' l2,
    all_searchable w -> wf_tree w (tree_of s1) -> no_loops w (tree_of s1) -> well_named (tree_of s1) -> tree_of s2 = tree_of s1 ->
    o_verbose o = 0%N -> usable_list ign1 -> usable_list ign2 ->
    (forall x, In x (links (tree_of s1)) -> ~ In (l_name x) (items ign1) /\ ~ In (l_name x) (items ign2)) ->
    runs (steady_step w) alone (process_arguments fuel1 (with_dry_run true o) fs ign1) s1 tr1 s1' (Ret l1) -> Forall (unhindered w) tr1 ->
    runs (steady_step w) alone (process_arguments fuel2 (with_dry_run false o) fs ign2) s2 tr2 s2' (Ret l2) -> Forall (unhindered w) tr2 ->
    (forall text, ~ printed tr1 text) <-> no_rename tr2.
Proof. exact dry_and_real. Qed.
Print Assumptions C105_silent_iff_nothing_to_do.

(** ** Examples *)

Definition dry_options : options_t := demo_options true true false 0.

Definition dry_run :=
  steady_play demo_world (process_arguments 19 dry_options [bs "a b"; bs "top dir"] None) (deep_state several_files) 3
    [Some (bs "x y"); None].

Lemma dry_runs : runs (steady_step demo_world) alone (process_arguments 19 dry_options [bs "a b"; bs "top dir"] None) (deep_state several_files)
  (fst (fst dry_run)) (snd (fst dry_run)) (Ret None) /\ Forall (unhindered demo_world) (fst (fst dry_run)).
Proof.
  split; [apply steady_runs; vm_compute; reflexivity|].
  vm_compute. repeat (constructor; [solve [reflexivity | exact I | eexists; reflexivity]|]). constructor.
Qed.

Example C105_example :
  printed (fst (fst dry_run)) (arrow (bs "top dir/x y") (bs "top dir/x_y")) /\
  printed (fst (fst dry_run)) (arrow (bs "top dir") (bs "top_dir")) /\
  ~ printed (fst (fst dry_run)) (arrow (bs "a b") (bs "a_b")) /\
  exists p q, come_to demo_world dry_options (deep_tree several_files) [bs "a b"; bs "top dir"] p /\
    would_rename demo_world dry_options (deep_tree several_files) p q /\
    arrow (bs "top dir/x y") (bs "top dir/x_y") = arrow p q.
Proof.
  assert (P : printed (fst (fst dry_run)) (arrow (bs "top dir/x y") (bs "top dir/x_y"))).
  { unfold printed. vm_compute. repeat ((left; reflexivity) || right). }
  split; [exact P|]. split; [|split].
  - unfold printed. vm_compute. repeat ((left; reflexivity) || right).
  - unfold printed. vm_compute. intros H. repeat (destruct H as [H|H]; [discriminate H|]). exact H.
  - destruct dry_runs as [R U].
    assert (WN : well_named (deep_tree several_files)) by (apply well_named_sound; vm_compute; reflexivity).
    destruct (C105_what_is_announced demo_world 19 dry_options [bs "a b"; bs "top dir"] None (deep_state several_files) _ _ _ demo_searchable several_wf several_no_loops WN eq_refl usable_null
      (fun x _ H => H) R U) as [_ H].
    destruct (proj1 (H _) P) as [[X _]|X]; [discriminate X|exact X].
Qed.

(** The announcements do not all come true: of two files with the same clean name, one is renamed. *)
Definition clash_files : list (N * string * N) := [en 1 "a b" 11; en 1 "a*b" 12].

Theorem C105_each_comes_true_refuted :
  exists w fuel o fs s tr1 s1 l1 tr2 s2 l2 p q,
    all_searchable w /\ wf_tree w (tree_of s) /\ no_loops w (tree_of s) /\ well_named (tree_of s) /\
    runs (steady_step w) alone (process_arguments fuel (with_dry_run true o) fs None) s tr1 s1 (Ret l1) /\ Forall (unhindered w) tr1 /\
    runs (steady_step w) alone (process_arguments fuel (with_dry_run false o) fs None) s tr2 s2 (Ret l2) /\ Forall (unhindered w) tr2 /\
    come_to w o (tree_of s) fs p /\ printed tr1 (arrow p q) /\ ~ In (Ev (Rename p q) None) tr2.
Proof.
  pose (fs := [bs "a b"; bs "a*b"]).
  pose (run1 := steady_play demo_world (process_arguments 19 (with_dry_run true dry_options) fs None) (deep_state clash_files) 3 []).
  pose (run2 := steady_play demo_world (process_arguments 19 (with_dry_run false dry_options) fs None) (deep_state clash_files) 3 []).
  exists demo_world, 19, dry_options, fs, (deep_state clash_files), (fst (fst run1)), (snd (fst run1)), None,
    (fst (fst run2)), (snd (fst run2)), None, (bs "a*b"), (bs "a_b").
  split; [exact demo_searchable|]. repeat match goal with |- _ /\ _ => split end.
  - unfold wf_tree. splits; [distinct_keys|distinct_keys| |].
    + intros l Il. each_link Il; intros K; try discriminate K; reflexivity.
    + intros l Il. each_link Il; discriminate.
  - intros l Il. each_link Il; intros K; discriminate K.
  - apply well_named_sound. vm_compute. reflexivity.
  - apply steady_runs. vm_compute. reflexivity.
  - vm_compute. repeat (constructor; [solve [reflexivity | exact I | eexists; reflexivity]|]). constructor.
  - apply steady_runs. vm_compute. reflexivity.
  - vm_compute. repeat (constructor; [solve [reflexivity | exact I | eexists; reflexivity]|]). constructor.
  - exists (bs "a*b"), (1, 12)%N. splits; [right; now left|reflexivity|right; now left|now left].
  - unfold printed. vm_compute. repeat ((left; reflexivity) || right).
  - vm_compute. intros H. repeat (destruct H as [H|H]; [discriminate H|]). exact H.
Qed.
Print Assumptions C105_each_comes_true_refuted.
