(** * From the command line to a tidy directory (C104) *)

From Verif Require Import Base BaseFacts Table BuiltinTables CleanString CleanSpec Filter Spoof SequenceSpec SequenceProofs Filelist
  Prog ProgFacts File FS FSProofs FileSpec FilelistProofs FileProofs RunSpec Play
  ConfigLoad ConfigLoadSpec Options OptionsSpec Startup Main MainSpec MainProofs
  TidySpec SteadyPlay SeveralSpec TidyRunSpec TidyProofs8 PropSequence PropFile PropTidy PropMain PropSeveral.

Local Open Scope nat_scope.

(** ** C104 *)

(** Without configuration files, `detox`, with or without -r, -v, --special and -s default, lower
    or utf_8, applied to files and directories that are not in one another: if no call fails,
    its exit status is 0, every argument can be found under its old path or under one it was
    renamed to, where it would stay, and what is gone through has portable names, apart from hidden
    entries, {arch}, and entries whose new name would be empty or is taken. *)
Theorem C104_tidies_out_of_the_box :
  forall w fuel sy argv ws args name s tr s' n,
    all_searchable w -> (forall d a b, fold_name w d a = fold_name w d b -> a = b) ->
    wf_tree w (tree_of s) -> no_loops w (tree_of s) -> well_named (tree_of s) ->
    plain_request sy argv ws (map fst args) name -> apart w ws (tree_of s) args ->
    runs (steady_step w) alone (main fuel sy argv) s tr s' (Ret n) -> Forall (unhindered w) tr ->
    n = 0%N /\
    (exists qs, Forall2 (fun arg q => (q = fst arg \/ In (Ev (Rename (fst arg) q) None) tr) /\
                                     at_home w (m_platform sy) name (tree_of s') q (snd arg)) args qs) /\
    forall i l, In i (map snd args) -> kind_of w i = KDir -> In l (links (tree_of s')) -> gone_through w ws (tree_of s') i (l_dir l) ->
      (kind_of w (l_target l) = KDir \/ kind_of w (l_target l) = KReg \/ In Special ws) ->
      hidden (l_name l) \/ l_name l = bs "{arch}" \/ tidy w (m_platform sy) name (tree_of s') l.
Proof. exact plain_run_tidies. Qed.
Print Assumptions C104_tidies_out_of_the_box.

(** Asked again, with the same options and some or all of the files under their new names, it
    renames nothing, if there is no {arch}. *)
Theorem C104_again :
  forall w fuel1 fuel2 sy argv1 ws args name s tr1 s1 n1,
    all_searchable w -> (forall d a b, fold_name w d a = fold_name w d b -> a = b) ->
    wf_tree w (tree_of s) -> no_loops w (tree_of s) -> well_named (tree_of s) ->
    plain_request sy argv1 ws (map fst args) name -> apart w ws (tree_of s) args ->
    runs (steady_step w) alone (main fuel1 sy argv1) s tr1 s1 (Ret n1) -> Forall (unhindered w) tr1 ->
    (forall i l, In i (map snd args) -> In l (links (tree_of s1)) -> below (tree_of s1) i (l_dir l) -> l_name l <> bs "{arch}") ->
    exists qs, Forall2 (fun arg q => q = fst arg \/ In (Ev (Rename (fst arg) q) None) tr1) args qs /\
      forall argv2 fs s2 tr2 s3 n2, asks (posix_env sy) (tl argv2) ws fs -> incl fs qs -> tree_of s2 = tree_of s1 ->
        runs (steady_step w) alone (main fuel2 sy argv2) s2 tr2 s3 (Ret n2) ->
        tree_of s3 = tree_of s2 /\ TidySpec.no_rename tr2.
Proof. exact plain_run_again. Qed.
Print Assumptions C104_again.

(** ** Examples *)

Definition tidy_argv : list str := words ["detox"; "a b"; "-r"; "top dir"; "c d"; "s d"; "a_b"]%string.

Definition tidy_run :=
  steady_play demo_world (main 19 (plain_system no_files no_env) tidy_argv) (deep_state several_files) 3
    [Some (bs "x y"); None; Some (bs "p q"); None].

Lemma tidy_request : plain_request (plain_system no_files no_env) tidy_argv [Recursive] (map fst several_arguments) (bs "default").
Proof.
  assert (Op : forall a, match a with c :: _ => beq c "-" | [] => false end = false -> operand a).
  { intros a H. right. intros r ->. discriminate. }
  constructor.
  - change (asks false (words ["a b"; "-r"; "top dir"; "c d"; "s d"; "a_b"]%string) [Recursive] (words ["a b"; "top dir"; "c d"; "s d"; "a_b"]%string)).
    apply asks_file; [reflexivity|now apply Op|].
    apply (asks_letters false (bs "r") [Recursive] _ []); [discriminate|repeat constructor|].
    do 4 (apply asks_file; [reflexivity|now apply Op|]). constructor.
  - intros H. apply inline_bin_called in H. vm_compute in H. discriminate.
  - intros [H|[]]. discriminate.
  - intros [H|[]]. discriminate.
  - apply last_none. intros x [<-|[]]. reflexivity.
  - reflexivity.
  - now left.
  - right. split; [reflexivity|]. exists None. split; [|reflexivity]. apply last_none. intros x [<-|[]]. reflexivity.
  - discriminate.
Qed.

Lemma tidy_apart : apart demo_world [Recursive] (deep_tree several_files) several_arguments.
Proof.
  destruct several_separate as [ND H]. split; [exact ND|]. intros p i I. destruct (H p i I) as [K S]. split; [|exact S].
  destruct K as [K|[K|K]]; auto. discriminate K.
Qed.

Example C104_example :
  snd tidy_run = Ret 0%N /\
  names_of (tree_of (snd (fst tidy_run))) =
    [(1, bs "top_dir", 2); (2, bs "x_y", 10); (1, bs "a b", 11); (1, bs "a_b", 12); (1, bs "s_d", 3); (3, bs "p_q", 13); (1, bs "c_d", 14)]%N /\
  exists qs, Forall2 (fun arg q => (q = fst arg \/ In (Ev (Rename (fst arg) q) None) (fst (fst tidy_run))) /\
                                  at_home demo_world demo_pf (bs "default") (tree_of (snd (fst tidy_run))) q (snd arg)) several_arguments qs.
Proof.
  split; [vm_compute; reflexivity|]. split; [vm_compute; reflexivity|].
  apply (C104_tidies_out_of_the_box demo_world 19 (plain_system no_files no_env) tidy_argv [Recursive] several_arguments (bs "default") (deep_state several_files)
    (fst (fst tidy_run)) (snd (fst tidy_run)) 0%N);
    auto using demo_searchable, several_wf, several_no_loops, tidy_request, tidy_apart.
  - apply well_named_sound. vm_compute. reflexivity.
  - apply steady_runs. vm_compute. reflexivity.
  - vm_compute. repeat (constructor; [solve [reflexivity | exact I | eexists; reflexivity]|]). constructor.
Qed.
