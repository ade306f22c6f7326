(** * Properties of processing files and directories (C20-C29, C33, C50, C51) *)

From Verif Require Import Base BaseFacts Table BuiltinTables CleanString CleanSpec Filter Spoof SequenceSpec SequenceProofs
  Filelist Prog ProgFacts File FS FileSpec FilelistProofs FileProofs FSProofs WalkProofs FileProofs2 Play PropSequence
  Warnings WarningsProofs WarningsSpec WarningsProofs2.

(** ** A small file system for the examples *)

Definition seq_of (name : string) : option sequence_t :=
  match sequence_choose_default (cf_sequences spoof_config_file) (Some (bs name)) with
  | Some s0 => match sequence_review None (fun _ => None) s0 with Ok s => Some s | _ => None end
  | None => None
  end.

Definition demo_options (dry recurse special : bool) (verbose : N) : options_t :=
  mkOptions demo_pf dry false false false recurse special verbose (seq_of "default") None None None None.

(** Inodes 1..9 of device 1 are directories, 10..99 are regular files, 100.. are
    symbolic links to "a b". *)
Definition demo_world : world :=
  mkWorld
    (fun i => if (snd i <? 10)%N then KDir else if (snd i <? 100)%N then KReg else KSym (bs "a b"))
    (fun _ => true) (fun _ n => n) (fun _ => true) (fun _ => 2%N) (1, 1)%N (1, 1)%N 8.

(** Entries with directory, name and target; all directories are directly below the root. *)
Definition en (d : N) (name : string) (target : N) : N * string * N := (d, name, target).

Definition demo_tree (es : list (N * string * N)) : tree :=
  mkTree (map (fun e => mkLink (1, fst (fst e))%N (bs (snd (fst e))) (1, snd e)%N) es) (fun _ => (1, 1)%N).

Definition names_of (t : tree) : list (N * str * N) :=
  map (fun l => (snd (l_dir l), l_name l, snd (l_target l))) (links t).

Definition trace {A} (r : list event * tree * prog A) : list event := fst (fst r).
Definition final {A} (r : list event * tree * prog A) : tree := snd (fst r).

Lemma fs_honest w : honest_names (fs_step w).
Proof. intros t h n t' [_ H]. exact H. Qed.

(** ** C20 *)

(** In a dry run no rename is issued, whatever the world answers and wherever the run
    is cut off. *)
Theorem C20_dry_run_issues_no_rename :
  forall fuel o files ign tr p',
    o_dry_run o = true ->
    trace_of (process_arguments fuel o files ign) tr p' ->
    ~ Exists is_rename tr.
Proof. intros. eapply dry_run_quiet; eauto. Qed.
Print Assumptions C20_dry_run_issues_no_rename.

(** ... so the tree stays what it was. *)
Theorem C20_dry_run_keeps_the_tree :
  forall w fuel o files ign t tr t' p',
    o_dry_run o = true ->
    runs (fs_step w) alone (process_arguments fuel o files ign) t tr t' p' ->
    t' = t.
Proof. intros. eapply dry_run_tree; eauto. Qed.
Print Assumptions C20_dry_run_keeps_the_tree.

Example C20_example :
  let t := demo_tree [en 1 "a b" 10; en 1 "d" 2; en 2 "x y" 11] in
  let run := play demo_world (process_arguments 9 (demo_options true true false 0) [bs "a b"; bs "d"] None) t 3
               [Some (bs "x y"); None] in
  names_of (final run) = names_of t /\
  In (announced (bs "a b") (bs "a_b")) (trace run) /\ In (announced (bs "d/x y") (bs "d/x_y")) (trace run).
Proof. vm_compute. intuition. Qed.

(** ** C21 *)

(** At every point of every run nothing has been lost. *)
Theorem C21_nothing_lost :
  forall w fuel o files ign t tr t' p',
    runs (fs_step w) alone (process_arguments fuel o files ign) t tr t' p' ->
    nothing_lost t t'.
Proof. intros. eapply run_keeps; eauto. Qed.
Print Assumptions C21_nothing_lost.

(** A rename is asked for only when the source exists, and the target does not or is
    the same file with a single link. *)
Theorem C21_rename_only_to_free_name :
  forall w fuel o files ign t tr t' old new k,
    runs (fs_step w) alone (process_arguments fuel o files ign) t tr t' (Call (Rename old new) k) ->
    exists i, lstat_inode w t' old = Some i /\
      (lstat_inode w t' new = None \/ lstat_inode w t' new = Some i /\ (st_nlink (stat_of w t' i) <= 1)%N).
Proof.
  intros w fuel o files ign t tr t' old new k R. apply run_requests in R.
  destruct R as ((_ & H) & _). exact H.
Qed.
Print Assumptions C21_rename_only_to_free_name.

(** Two names that clean to the same: the second rename is refused. *)
Example C21_example :
  let t := demo_tree [en 1 "a b" 10; en 1 "a  b" 11; en 1 "c d" 12] in
  let run := play demo_world (process_arguments 9 (demo_options false false false 0) [bs "a b"; bs "a  b"; bs "c d"] None) t 3 [] in
  names_of (final run) = [(1, bs "a_b", 10); (1, bs "a  b", 11); (1, bs "c_d", 12)]%N /\
  In (Ev (Print Stderr (bs "Cannot rename a  b to a_b: file already exists" ++ [Nb 10])) tt) (trace run).
Proof. vm_compute. intuition. Qed.

(** ** C22 *)

Lemma default_renames o : o_platform o = demo_pf -> o_sequence_to_use o = seq_of "default" ->
  proper_rename o (bs "a b") (bs "a_b").
Proof.
  intros P S. exists [], (bs "a b"), (bs "a_b"). rewrite P, S. repeat split; try discriminate; auto.
  simpl. intuition discriminate.
Qed.

Lemma default_parse o : o_platform o = demo_pf -> o_sequence_to_use o = seq_of "default" ->
  last_component (bs "a b") [] (bs "a b") /\ remarks o (bs "a b") = [].
Proof.
  intros P S. split; [repeat split; auto; simpl; intuition discriminate|]. unfold remarks. rewrite P, S. vm_compute. reflexivity.
Qed.

(** If somebody creates the target between the check and the rename, it is replaced:
    the file they created has no name any more. *)
Theorem C22_check_is_not_atomic :
  exists w o t t1 tr t' j,
    o_special o = false /\ refs t1 j = 1%nat /\
    runs (fs_step w) (anyone w) (parse_file (bs "a b") o) t tr t' (Ret (bs "a_b")) /\
    (exists k, runs (fs_step w) alone (parse_file (bs "a b") o) t (firstn 2 tr) t (Call (Rename (bs "a b") (bs "a_b")) k)) /\
    runs (fs_step w) (fun _ x => x = t1) (sys (Rename (bs "a b") (bs "a_b"))) t (skipn 2 tr) t' (Ret None) /\
    refs t' j = 0%nat.
Proof.
  pose (o := demo_options false false false 0).
  pose (t := demo_tree [en 1 "a b" 10]).
  pose (t1 := demo_tree [en 1 "a b" 10; en 1 "a_b" 11]).
  destruct (rename_do demo_world t1 (bs "a b") (bs "a_b")) as [t'|] eqn:R; [|vm_compute in R; discriminate].
  exists demo_world, o, t, t1,
    [Ev (Lstat (bs "a b")) (inl (mkStat 1 10 1 SReg)); Ev (Lstat (bs "a_b")) (inr []); Ev (Rename (bs "a b") (bs "a_b")) None],
    t', (1, 11)%N.
  pose proof (rename_do_sound _ _ _ _ _ R) as OK.
  destruct (default_parse o eq_refl eq_refl) as [Lc Rm].
  rewrite (parse_file_proper o (bs "a b") (bs "a_b") [] (bs "a b") Lc), Rm by (apply default_renames; reflexivity). cbn [told].
  split; [reflexivity|]. split; [reflexivity|]. split; [|split; [|split]].
  - apply (runs_call _ _ _ _ _ t _ t); [exact I | vm_compute; auto |].
    apply (runs_call _ _ _ _ _ t _ t); [exact I | vm_compute; eauto |].
    simpl o_verbose. simpl o_dry_run. cbv iota beta. cbn [orb N.ltb N.compare pbind sys].
    apply (runs_call _ _ _ _ _ t1 _ t'); [exact I | exact OK |]. apply runs_here.
  - eexists. apply (runs_call _ _ _ _ _ t _ t); [reflexivity | vm_compute; auto |].
    apply (runs_call _ _ _ _ _ t _ t); [reflexivity | vm_compute; eauto |]. apply runs_here.
  - apply (runs_call _ _ _ _ _ t1 _ t'); [reflexivity | exact OK |]. apply runs_here.
  - vm_compute in R. injection R as <-. reflexivity.
Qed.
Print Assumptions C22_check_is_not_atomic.

(** ** C50 *)

(** The same happens without anybody else when lstat fails for a moment on the target
    (an I/O error, say): the code takes every failure for "does not exist". *)
Theorem C50_lstat_error_overwrites :
  exists w o t tr t' j,
    refs t j = 1%nat /\
    runs (flaky_step w) alone (parse_file (bs "a b") o) t tr t' (Ret (bs "a_b")) /\
    refs t' j = 0%nat.
Proof.
  pose (o := demo_options false false false 0).
  pose (t1 := demo_tree [en 1 "a b" 10; en 1 "a_b" 11]).
  destruct (rename_do demo_world t1 (bs "a b") (bs "a_b")) as [t'|] eqn:R; [|vm_compute in R; discriminate].
  exists demo_world, o, t1,
    [Ev (Lstat (bs "a b")) (inl (mkStat 1 10 1 SReg)); Ev (Lstat (bs "a_b")) (inr (bs "I/O error")); Ev (Rename (bs "a b") (bs "a_b")) None],
    t', (1, 11)%N.
  pose proof (rename_do_sound _ _ _ _ _ R) as OK.
  destruct (default_parse o eq_refl eq_refl) as [Lc Rm].
  rewrite (parse_file_proper o (bs "a b") (bs "a_b") [] (bs "a b") Lc), Rm by (apply default_renames; reflexivity). cbn [told].
  split; [reflexivity|]. split.
  - apply (runs_call _ _ _ _ _ t1 _ t1); [reflexivity | left; vm_compute; auto |].
    apply (runs_call _ _ _ _ _ t1 _ t1); [reflexivity | right; eauto |].
    apply (runs_call _ _ _ _ _ t1 _ t'); [reflexivity | exact OK |]. apply runs_here.
  - vm_compute in R. injection R as <-. reflexivity.
Qed.
Print Assumptions C50_lstat_error_overwrites.

(** ** C23 *)

(** Every rename request is for the last component: source and target agree up to the
    last '/' of the source, and the rest of the target is the cleaned last component. *)
Theorem C23_only_last_component :
  forall fuel o files ign tr old new k,
    trace_of (process_arguments fuel o files ign) tr (Call (Rename old new) k) ->
    exists dir base clean,
      last_component old dir base /\ new = dir ++ clean /\
      base <> [] /\ base <> bs "." /\ base <> bs ".." /\ clean <> base /\
      sequence_run_filters (o_platform o) (o_sequence_to_use o) (Some base) = Ok (Some clean).
Proof. intros fuel o files ign tr old new k T. now apply renames_proper in T. Qed.
Print Assumptions C23_only_last_component.

(** If the cleaned name is not empty and has no '/', the renamed file is in the
    directory it was in. *)
Theorem C23_stays_in_directory :
  forall w t o old new d n v d' n' v',
    proper_rename o old new ->
    (forall dir base clean, last_component old dir base -> new = dir ++ clean -> plain_name clean) ->
    place w t old = Some (d, n, v) -> place w t new = Some (d', n', v') -> d' = d.
Proof.
  intros w t o old new d n v d' n' v' (dir & base & clean & L & E & B & _) PN P1 P2.
  destruct (PN dir base clean L E) as [C1 C2].
  assert (L2 : last_component new dir clean).
  { destruct L as (_ & _ & D). split; [assumption|split; assumption]. }
  rewrite (place_last w t old dir base L B) in P1.
  rewrite (place_last w t new dir clean L2 C1), (start_agrees w new old dir clean base L2 L) in P2.
  destruct (usable w old); [|discriminate]. destruct (usable w new); [|discriminate].
  destruct (walk w t (max_symlinks w) (start_of w old) (components dir)) as [[e via]|]; [|discriminate].
  congruence.
Qed.
Print Assumptions C23_stays_in_directory.

(** Without that proviso the file can leave its directory: uncgi-only turns "x%2Fa" into
    "x/a". *)
Theorem C23_slash_moves_file_refuted :
  exists w o t tr t' q i d d',
    runs (fs_step w) alone (parse_file (bs "x%2Fa") o) t tr t' (Ret q) /\
    In (mkLink d (bs "x%2Fa") i) (links t) /\ In (mkLink d' (bs "a") i) (links t') /\ d <> d'.
Proof.
  pose (o := mkOptions demo_pf false false false false false false 0 (seq_of "uncgi-only") None None None None).
  pose (t := demo_tree [en 1 "x" 2; en 1 "x%2Fa" 10]).
  pose (run := play demo_world (parse_file (bs "x%2Fa") o) t 3 []).
  exists demo_world, o, t, (trace run), (final run), (bs "x/a"), (1, 10)%N, (1, 1)%N, (1, 2)%N.
  split; [apply play_runs; vm_compute; reflexivity|].
  split; [simpl; auto|]. split; [|discriminate]. vm_compute. auto.
Qed.
Print Assumptions C23_slash_moves_file_refuted.

Example C23_example :
  let t := demo_tree [en 1 "a b" 2; en 2 "c d" 10] in
  let run p := play demo_world (process_arguments 9 (demo_options false false false 0) [p] None) t 3 [None] in
  names_of (final (run (bs "a b/c d"))) = [(1, bs "a b", 2); (2, bs "c_d", 10)]%N /\
  names_of (final (run (bs "a b/"))) = names_of t /\ names_of (final (run (bs "a b/."))) = names_of t.
Proof. vm_compute. auto. Qed.

(** ** C24 *)

(** The path returned refers to the same file, and is a new one exactly if a rename
    succeeded; provided that cleaning yields no '/' and that the path does not
    lead through the very entry that is renamed. *)
Theorem C24_returned_path :
  forall w o t p tr t' q i,
    wf_tree w t ->
    (forall dir base clean, last_component p dir base ->
       sequence_run_filters (o_platform o) (o_sequence_to_use o) (Some base) = Ok (Some clean) -> ~ In "/"%byte clean) ->
    not_through_itself w t p ->
    lstat_inode w t p = Some i ->
    runs (fs_step w) alone (parse_file p o) t tr t' (Ret q) ->
    lstat_inode w t' q = Some i /\ (q <> p <-> In (Ev (Rename p q) None) tr).
Proof. intros. eapply returned_path; eauto. Qed.
Print Assumptions C24_returned_path.

(** A path through the entry itself, "a b/../a b", is renamed but the returned path
    then leads nowhere: main does not walk the directory. *)
Theorem C24_path_through_itself_refuted :
  exists w o t p tr t' q i,
    wf_tree w t /\ lstat_inode w t p = Some i /\
    runs (fs_step w) alone (parse_file p o) t tr t' (Ret q) /\
    lstat_inode w t' q = None.
Proof.
  pose (o := demo_options false false false 0).
  pose (t := demo_tree [en 1 "a b" 2; en 2 "c d" 10]).
  pose (p := bs "a b/../a b").
  pose (run := play demo_world (parse_file p o) t 3 []).
  exists demo_world, o, t, p, (trace run), (final run), (bs "a b/../a_b"), (1, 2)%N.
  split; [|split; [reflexivity|split; [apply play_runs; vm_compute; reflexivity|vm_compute; reflexivity]]].
  unfold wf_tree. splits.
  - vm_compute. repeat constructor; simpl; intuition discriminate.
  - vm_compute. repeat constructor; simpl; intuition discriminate.
  - intros l [<-|[<-|[]]]; vm_compute; auto; discriminate.
  - intros l [<-|[<-|[]]]; discriminate.
Qed.
Print Assumptions C24_path_through_itself_refuted.

Example C24_example :
  let t := demo_tree [en 1 "a b" 2; en 2 "c d" 10] in
  let run := play demo_world (parse_file (bs "a b/../a b/c d") (demo_options false false false 0)) t 3 [] in
  snd run = Ret (bs "a b/../a b/c_d") /\ lstat_inode demo_world t (bs "a b/../a b/c d") = Some (1, 10)%N /\
  lstat_inode demo_world (final run) (bs "a b/../a b/c_d") = Some (1, 10)%N /\
  not_through_itself demo_world t (bs "a b/../a b/c d").
Proof.
  cbv zeta. splits; try (vm_compute; reflexivity).
  intros d n via E x c I [-> Y]. vm_compute in E.
  assert (Ed : d = (1, 2)%N) by (apply (f_equal (option_map (fun x => fst (fst x)))) in E; injection E as <-; reflexivity).
  assert (En : n = bs "c d") by (apply (f_equal (option_map (fun x => snd (fst x)))) in E; injection E as <-; reflexivity).
  assert (Ev : via = [((1, 1)%N, bs "a b"); ((1, 2)%N, bs ".."); ((1, 1)%N, bs "a b")])
    by (apply (f_equal (option_map snd)) in E; injection E as <-; reflexivity).
  subst d n via. simpl in Y. subst c. destruct I as [I|[I|[I|[]]]]; discriminate.
Qed.

(** ** C25 *)

(** In every world where readdir returns file names, a walk asks only for renames of
    entries that readdir returned, in directories it opened, whose names do not start
    with '.'; and it opens only the directory it started with and directories found
    that way. *)
Theorem C25_hidden_entries_skipped :
  forall {S : Type} (step : S -> forall c, answer c -> S -> Prop) interference fuel o start ign s tr s' c k,
    honest_names step ->
    runs step interference (parse_dir fuel o start ign) s tr s' (Call c k) ->
    match c with
    | Rename old new => exists top n, walked start tr top /\ met tr top n old /\ ~ hidden n
    | Opendir p => walked start tr p
    | _ => True
    end.
Proof.
  intros S step interference fuel o start ign s tr s' c k H R.
  pose proof (walk_requests _ _ H _ _ _ _ _ _ _ _ _ R) as W.
  destruct c; simpl in *; auto.
  - destruct W as (top & n & A & B & C & _). exists top, n. auto.
  - tauto.
Qed.
Print Assumptions C25_hidden_entries_skipped.

(** The file-system model is such a world. *)
Theorem C25_file_system_is_honest : forall w, honest_names (fs_step w).
Proof. exact fs_honest. Qed.
Print Assumptions C25_file_system_is_honest.

Example C25_example :
  let t := demo_tree [en 1 ".a b" 10; en 1 "a b" 11; en 1 ".d" 2; en 2 "x y" 12] in
  let run := play demo_world (parse_dir 9 (demo_options false true false 0) (bs "/") None) t 3
     [Some (bs ".."); Some (bs ".a b"); Some (bs "a b"); Some (bs ".d"); None] in
  names_of (final run) = [(1, bs ".a b", 10); (1, bs "a_b", 11); (1, bs ".d", 2); (2, bs "x y", 12)]%N.
Proof. vm_compute. reflexivity. Qed.

(** ** C26 *)

(** A check skips a name exactly if it is hidden or on the list at or after the
    cursor; after a check that skips nothing the cursor is back at the start. *)
Theorem C26_check :
  forall name l b l',
    usable_list l -> ignore_file name l = Ok (b, l') ->
    items l' = items l /\
    (b = true <-> hidden name \/ In name (skipn (cursor l) (items l))) /\
    (b = false -> cursor l' = 0%nat).
Proof.
  intros name l b l' U E. apply usable_good in U.
  destruct (ignore_file_result name l b l' U E) as (_ & A & B & C). auto.
Qed.
Print Assumptions C26_check.

(** During a whole run: if a rename of a listed name is asked for although it is not an
    argument, then the name checked just before was a listed name, too. *)
Theorem C26_ignored_unless_after_ignored :
  forall {S : Type} (step : S -> forall c, answer c -> S -> Prop) interference fuel o files ign s tr s' old new k,
    honest_names step -> usable_list ign -> cursor ign = 0%nat ->
    runs step interference (process_arguments fuel o files ign) s tr s' (Call (Rename old new) k) ->
    In old files \/
    exists top n rest, old = top ++ bs "/" ++ n /\ checked (rev tr) = n :: rest /\
      (In n (items ign) -> exists m r, rest = m :: r /\ In m (items ign)).
Proof.
  intros S step interference fuel o files ign s tr s' old new k H U C R.
  eapply run_ignoring; eauto. now apply usable_good.
Qed.
Print Assumptions C26_ignored_unless_after_ignored.

(** The exception is real, with the shipped ignore list: in two directories that both
    contain only "{arch}", the second one is renamed. *)
Definition arch_list : option filelist :=
  match put_all filelist_init [bs "{arch}"] with Ok l => Some l | _ => None end.

Theorem C26_always_ignored_refuted :
  exists w fuel o t tr t' ign' old new,
    usable_list arch_list /\ cursor arch_list = 0%nat /\ items arch_list = [bs "{arch}"] /\
    runs (fs_step w) alone (process_arguments fuel o [bs "d"; bs "e"] arch_list) t tr t' (Ret ign') /\
    last_component old (bs "e/") (bs "{arch}") /\ In (Ev (Rename old new) None) tr.
Proof.
  pose (o := demo_options false false false 0).
  pose (t := demo_tree [en 1 "d" 2; en 1 "e" 3; en 2 "{arch}" 4; en 3 "{arch}" 5]).
  pose (script := [Some (bs "{arch}"); None; Some (bs "{arch}"); None]).
  pose (run := play demo_world (process_arguments 9 o [bs "d"; bs "e"] arch_list) t 3 script).
  pose (ign' := match snd run with Ret i => i | _ => None end).
  exists demo_world, 9%nat, o, t, (trace run), (final run), ign', (bs "e/{arch}"), (bs "e/arch-").
  split; [|split; [reflexivity|split; [reflexivity|split; [apply play_runs; vm_compute; reflexivity|split]]]].
  - eapply usable_put with (f := bs "{arch}"); [apply usable_init | reflexivity].
  - unfold last_component. splits; [reflexivity | simpl; intuition discriminate | right; now exists (bs "e")].
  - vm_compute. intuition.
Qed.
Print Assumptions C26_always_ignored_refuted.

Example C26_example :
  let t := demo_tree [en 1 "{arch}" 2; en 1 "a b" 10] in
  let run := play demo_world (process_arguments 9 (demo_options false true false 0) [bs "/"] arch_list) t 3
     [Some (bs "a b"); Some (bs "{arch}"); None] in
  names_of (final run) = [(1, bs "{arch}", 2); (1, bs "a_b", 10)]%N.
Proof. vm_compute. reflexivity. Qed.

(** ** C27 *)

(** Without the special option only regular files and directories are renamed. *)
Theorem C27_kinds :
  forall w fuel o files ign t tr t' old new k,
    o_special o = false ->
    runs (fs_step w) alone (process_arguments fuel o files ign) t tr t' (Call (Rename old new) k) ->
    exists i, lstat_inode w t' old = Some i /\ (kind_of w i = KDir \/ kind_of w i = KReg).
Proof.
  intros w fuel o files ign t tr t' old new k S R. apply run_requests in R. now destruct R as (_ & H); apply H.
Qed.
Print Assumptions C27_kinds.

(** Only directories proper are entered (not symbolic links to directories). *)
Theorem C27_only_directories_entered :
  forall w fuel o files ign t tr t' p k,
    runs (fs_step w) alone (process_arguments fuel o files ign) t tr t' (Call (Opendir p) k) ->
    exists i, lstat_inode w t' p = Some i /\ kind_of w i = KDir.
Proof. intros w fuel o files ign t tr t' p k R. now apply run_requests in R. Qed.
Print Assumptions C27_only_directories_entered.

(** Without the recurse option a run opens only the arguments (under their old or new
    name) and renames only arguments and entries of these. *)
Theorem C27_no_recursion :
  forall {S : Type} (step : S -> forall c, answer c -> S -> Prop) interference fuel o files ign s tr s' c k,
    honest_names step -> o_recurse o = false ->
    runs step interference (process_arguments fuel o files ign) s tr s' (Call c k) ->
    let argument d := exists f, In f files /\ (d = f \/ In (Ev (Rename f d) None) tr) in
    match c with
    | Opendir p => argument p
    | Rename old new => In old files \/ exists d n, argument d /\ file_name n /\ old = d ++ bs "/" ++ n
    | _ => True
    end.
Proof.
  intros S step interference fuel o files ign s tr s' c k H Rec R.
  pose proof (arguments_requests _ _ H _ _ _ _ _ _ _ _ _ R) as W.
  destruct c; simpl in *; auto.
  - destruct W as [W|(f & st & (A1 & A2) & top & n & W1 & (h & M1 & M2 & E) & Hn & D)]; auto.
    right. specialize (D Rec). subst top. exists st, n. splits; [exists f; auto| |assumption].
    apply in_split in M2. destruct M2 as (t1 & t2 & ->). apply runs_split in R.
    destruct R as (s1 & k1 & s0 & s2 & _ & _ & St & _). now apply H in St.
  - destruct W as (f & st & (A1 & A2) & W1 & D). rewrite (D Rec). exists f. auto.
Qed.
Print Assumptions C27_no_recursion.

(** Every call of a run with recursion is inside the arguments' trees as met by the
    walk. *)
Theorem C27_within_arguments :
  forall {S : Type} (step : S -> forall c, answer c -> S -> Prop) interference fuel o files ign s tr s' c k,
    honest_names step ->
    runs step interference (process_arguments fuel o files ign) s tr s' (Call c k) ->
    let argument d := exists f, In f files /\ (d = f \/ In (Ev (Rename f d) None) tr) in
    match c with
    | Opendir p => exists d, argument d /\ walked d tr p
    | Rename old new => In old files \/ exists d top n, argument d /\ walked d tr top /\ met tr top n old /\ ~ hidden n
    | _ => True
    end.
Proof.
  intros S step interference fuel o files ign s tr s' c k H R.
  pose proof (arguments_requests _ _ H _ _ _ _ _ _ _ _ _ R) as W.
  destruct c; simpl in *; auto.
  - destruct W as [W|(f & st & (A1 & A2) & top & n & W1 & M & Hn & D)]; auto.
    right. exists st, top, n. splits; auto. exists f. auto.
  - destruct W as (f & st & (A1 & A2) & W1 & D). exists st. split; auto. exists f. auto.
Qed.
Print Assumptions C27_within_arguments.

Example C27_example :
  let t := demo_tree [en 1 "d" 2; en 2 "l k" 100; en 2 "s d" 3; en 3 "x y" 10] in
  let script1 := [Some (bs "l k"); Some (bs "s d"); None] in
  let script2 := [Some (bs "l k"); Some (bs "s d"); Some (bs "x y"); None; None] in
  let run o script := names_of (final (play demo_world (process_arguments 9 o [bs "d"] None) t 3 script)) in
  run (demo_options false false false 0) script1 = [(1, bs "d", 2); (2, bs "l k", 100); (2, bs "s_d", 3); (3, bs "x y", 10)]%N /\
  run (demo_options false true false 0) script2 = [(1, bs "d", 2); (2, bs "l k", 100); (2, bs "s_d", 3); (3, bs "x_y", 10)]%N /\
  run (demo_options false false true 0) script1 = [(1, bs "d", 2); (2, bs "l_k", 100); (2, bs "s_d", 3); (3, bs "x y", 10)]%N.
Proof. vm_compute. auto. Qed.

(** ** C28 *)

(** In verbose mode the call before a rename is the line announcing it. *)
Theorem C28_announced :
  forall fuel o files ign tr old new k,
    (0 < o_verbose o)%N ->
    trace_of (process_arguments fuel o files ign) tr (Call (Rename old new) k) ->
    exists tr', tr = tr' ++ [announced old new].
Proof. intros fuel o files ign tr old new k V T. apply renames_proper in T. destruct T as (_ & _ & A). auto. Qed.
Print Assumptions C28_announced.

(** For one file, a dry run announces exactly the rename that a real run attempts. *)
Theorem C28_dry_run_announces_what_a_run_attempts :
  forall w o t p new,
    (exists tr t' q, runs (fs_step w) alone (parse_file p (with_dry_run true o)) t tr t' q /\ In (announced p new) tr) <->
    (exists tr t' k, runs (fs_step w) alone (parse_file p (with_dry_run false o)) t tr t' (Call (Rename p new) k)).
Proof. intros. now rewrite announce_iff, attempt_iff. Qed.
Print Assumptions C28_dry_run_announces_what_a_run_attempts.

(** For a directory this fails: two entries that clean to the same name are both
    announced, but only one is renamed. *)
Theorem C28_dry_run_of_directory_refuted :
  exists w fuel o t script old new,
    let dry := play w (process_arguments fuel (with_dry_run true o) [bs "d"] None) t 3 script in
    let real := play w (process_arguments fuel (with_dry_run false o) [bs "d"] None) t 3 script in
    In (announced old new) (trace dry) /\
    (forall r, ~ In (Ev (Rename old new) r) (trace real)) /\
    (exists i, snd dry = Ret i) /\ (exists i, snd real = Ret i).
Proof.
  exists demo_world, 9%nat, (demo_options false false false 0), (demo_tree [en 1 "d" 2; en 2 "a b" 10; en 2 "a  b" 11]),
    [Some (bs "a b"); Some (bs "a  b"); None], (bs "d/a  b"), (bs "d/a_b").
  vm_compute. splits.
  - intuition.
  - intros r H. repeat (destruct H as [H|H]; [discriminate|]). exact H.
  - eexists. reflexivity.
  - eexists. reflexivity.
Qed.
Print Assumptions C28_dry_run_of_directory_refuted.

Example C28_example :
  let t := demo_tree [en 1 "a b" 10] in
  trace (play demo_world (process_arguments 9 (demo_options false false false 1) [bs "a b"] None) t 3 []) =
  [Ev (Print Stdout (bs "Scanning: a b" ++ [Nb 10])) tt;
   Ev (Lstat (bs "a b")) (inl (mkStat 1 10 1 SReg)); Ev (Lstat (bs "a b")) (inl (mkStat 1 10 1 SReg));
   Ev (Lstat (bs "a_b")) (inr (bs "No such file or directory"));
   announced (bs "a b") (bs "a_b"); Ev (Rename (bs "a b") (bs "a_b")) None].
Proof. vm_compute. reflexivity. Qed.

(** ** C29 *)

(** If cleaning twice is cleaning once and yields no '/', processing the path returned
    by a successful rename does nothing but repeat the filters' complaints, if any. *)
Theorem C29_second_time_nothing :
  forall {S : Type} (step : S -> forall c, answer c -> S -> Prop) interference o p q s tr s',
    (forall b c, sequence_run_filters (o_platform o) (o_sequence_to_use o) (Some b) = Ok (Some c) -> ~ In "/"%byte b ->
       ~ In "/"%byte c /\ sequence_run_filters (o_platform o) (o_sequence_to_use o) (Some c) = Ok (Some c)) ->
    runs step interference (parse_file p o) s tr s' (Ret q) -> In (Ev (Rename p q) None) tr ->
    parse_file q o = Ret q \/
    exists dir base, last_component q dir base /\ parse_file q o = told (remarks o base) (Ret q).
Proof.
  intros S step interference o p q s tr s' Idem R IN.
  apply in_split in IN. destruct IN as (t1 & t2 & ->). apply runs_split in R.
  destruct R as (s1 & k & s0 & s2 & R & _). apply runs_trace in R.
  assert (PR : proper_rename o p q).
  { assert (W : wp anything alone (fun _ _ => True) (fun _ _ c => match c with Rename a b => proper_rename o a b | _ => True end)
       (parse_file p o) (fun _ _ _ => True) [] tt).
    { apply parse_file_quiet; auto. intros ? ? []; simpl; tauto. }
    exact (runs_pending _ _ _ _ _ _ _ _ _ _ _ W R). }
  destruct PR as (dir & base & clean & (E1 & N & D) & -> & _ & _ & _ & _ & E).
  destruct (Idem base clean E N) as [C1 C2].
  assert (Lc : last_component (dir ++ clean) dir clean) by (repeat split; auto).
  rewrite (parse_file_clean o (dir ++ clean) dir clean); auto. destruct (is_protected clean); eauto.
Qed.
Print Assumptions C29_second_time_nothing.

(** With the shipped sequences default, lower and utf_8 it does nothing at all. *)
Theorem C29_shipped :
  forall {S : Type} (step : S -> forall c, answer c -> S -> Prop) interference o name seq p q s tr s',
    In name [bs "default"; bs "lower"; bs "utf_8"] -> shipped name seq ->
    (name = bs "lower" -> p_ctype (o_platform o) = c_locale) ->
    o_sequence_to_use o = Some seq -> nonul p -> (strlen p < 2 ^ 46)%N ->
    runs step interference (parse_file p o) s tr s' (Ret q) -> In (Ev (Rename p q) None) tr ->
    parse_file q o = Ret q.
Proof.
  intros S step interference o name seq p q s tr s' Hn Sh CT Hs NP LP R IN.
  apply in_split in IN. destruct IN as (t1 & t2 & ->). apply runs_split in R.
  destruct R as (s1 & k & s0 & s2 & R & _). apply runs_trace in R.
  assert (PR : proper_rename o p q).
  { assert (W : wp anything alone (fun _ _ => True) (fun _ _ c => match c with Rename a b => proper_rename o a b | _ => True end)
       (parse_file p o) (fun _ _ _ => True) [] tt).
    { apply parse_file_quiet; auto. intros ? ? []; simpl; tauto. }
    exact (runs_pending _ _ _ _ _ _ _ _ _ _ _ W R). }
  destruct PR as (dir & base & clean & (E1 & N & D) & -> & _ & _ & _ & _ & E).
  rewrite Hs in E.
  assert (NB : nonul base) by (rewrite E1 in NP; now apply nonul_app in NP).
  assert (LB : (strlen base < 2 ^ 46)%N).
  { rewrite E1 in LP. unfold strlen in *. rewrite app_length in LP. lia. }
  assert (Idem := shipped_idempotent _ _ _ _ _ Hn CT Sh NB LB E).
  assert (Po : portable clean).
  { eapply (shipped_portable (o_platform o) name seq base clean); eauto.
    - simpl in Hn |- *. tauto.
    - unfold small. eapply N.lt_trans; [exact LB|]. reflexivity. }
  assert (Lc : last_component (dir ++ clean) dir clean).
  { split; [reflexivity|]. split; [|assumption].
    intros X. destruct Po as (F & _). rewrite Forall_forall in F. apply (F _ X). vm_compute. tauto. }
  rewrite (parse_file_clean o (dir ++ clean) dir clean Lc) by now rewrite Hs.
  destruct (is_protected clean); [reflexivity|]. unfold remarks. rewrite Hs.
  destruct (sequence_says (o_platform o) seq clean _ Idem) as (l & Rl & ->).
  assert (l = []) as ->; [|reflexivity]. simpl in Hn. destruct Hn as [<-|[<-|[<-|[]]]].
  - eapply shipped_quiet; [|exact Sh|exact Rl]. simpl. tauto.
  - eapply shipped_quiet; [|exact Sh|exact Rl]. simpl. tauto.
  - eapply cleaned_quiet; eauto. unfold small. eapply N.lt_trans; [exact LB|]. reflexivity.
Qed.
Print Assumptions C29_shipped.

Example C29_example :
  let t := demo_tree [en 1 "a b" 10] in
  let o := demo_options false false false 0 in
  let run := play demo_world (parse_file (bs "a b") o) t 3 [] in
  snd run = Ret (bs "a_b") /\ In (Ev (Rename (bs "a b") (bs "a_b")) None) (trace run) /\
  trace (play demo_world (parse_file (bs "a_b") o) (final run) 3 []) = [].
Proof. vm_compute. intuition. Qed.

(** ** C51 *)

(** A name that cleans to nothing is never renamed, and the path stays what it was. *)
Theorem C51_empty_clean_name :
  forall w o t p dir base tr t' p',
    wf_tree w t -> last_component p dir base -> base <> [] ->
    sequence_run_filters (o_platform o) (o_sequence_to_use o) (Some base) = Ok (Some []) ->
    runs (fs_step w) alone (parse_file p o) t tr t' p' ->
    t' = t /\ forall q, p' = Ret q -> q = p.
Proof. intros. eapply empty_name_stays; eauto. Qed.
Print Assumptions C51_empty_clean_name.

(** A dry run nevertheless announces "--- -> " for such a file in the current directory,
    and a real run reports a failed rename. *)
Example C51_example :
  let t := demo_tree [en 1 "---" 10; en 1 "d" 2; en 2 "---" 11] in
  let run dry p := trace (play demo_world (parse_file (bs p) (demo_options dry false false 0)) t 3 []) in
  run_shipped "default" (bs "---") = Ok (Some []) /\
  In (announced (bs "---") []) (run true "---"%string) /\
  In (Ev (Print Stderr (bs "Cannot rename --- to : Operation not permitted" ++ [Nb 10])) tt) (run false "---"%string) /\
  In (Ev (Print Stderr (bs "Cannot rename d/--- to d/: file already exists" ++ [Nb 10])) tt) (run false "d/---"%string).
Proof. vm_compute. intuition. Qed.

(** ** C33 *)

(** Puts keep all items in order. *)
Theorem C33_puts :
  forall l files, usable_list (Some l) ->
    exists l', put_all l files = Ok l' /\ usable_list (Some l') /\
      items (Some l') = items (Some l) ++ files /\ (files <> [] -> cursor (Some l') = 0%nat).
Proof.
  intros l files U. destruct (put_all_good l files (usable_good _ U)) as (l' & E & G & It & P).
  exists l'. splits; auto. clear G It P. revert l U E.
  induction files as [|f files IH]; intros l U E; cbn [put_all] in E.
  - now injection E as <-.
  - destruct (filelist_put (Some l) f) as [l1| |] eqn:E1; try discriminate. cbn [bind] in E.
    apply (IH l1); auto. eapply usable_put; eauto.
Qed.
Print Assumptions C33_puts.

(** The [k]-th of any number of gets returns the item [k] places after the cursor, or
    the end marker; after the end marker it starts over. *)
Theorem C33_gets :
  forall n l, usable_list l ->
    exists rs l', get_many n l = Ok (rs, l') /\ length rs = n /\ items l' = items l /\
      forall k, (k < n)%nat ->
        nth_error rs k = Some (nth_error (items l) ((cursor l + k) mod (S (length (items l))))).
Proof.
  intros n l U. destruct (get_many_good n l (usable_good _ U)) as (rs & l' & E & _ & It & H).
  exists rs, l'. splits; auto.
  - clear - H. assert (A : nth_error rs n = None) by (rewrite H, Nat.ltb_irrefl; reflexivity).
    apply nth_error_None in A. destruct (Nat.le_gt_cases n (length rs)); [lia|].
    assert (B : nth_error rs (length rs) = None) by (now apply nth_error_None).
    rewrite H in B. apply Nat.ltb_lt in H0. rewrite H0 in B. discriminate.
  - intros k Hk. rewrite H. apply Nat.ltb_lt in Hk. now rewrite Hk.
Qed.
Print Assumptions C33_gets.

(** The count is the number of items, and a reset goes back to the first. *)
Theorem C33_count_and_reset :
  forall l, usable_list l ->
    filelist_count l = length (items l) /\
    items (filelist_reset l) = items l /\ cursor (filelist_reset l) = 0%nat.
Proof. intros l U. split; [apply count_items, (usable_good _ U)|]. destruct l; split; reflexivity. Qed.
Print Assumptions C33_count_and_reset.

Example C33_example :
  match put_all filelist_init (map bs ["a";"b";"c";"d";"e";"f";"g";"h";"i";"j";"k";"l";"m";"n";"o";"p";"q"])%string with
  | Ok l => match get_many 20 (Some l) with
            | Ok (rs, _) => rs = map (fun s => Some (bs s)) ["a";"b";"c";"d";"e";"f";"g";"h";"i";"j";"k";"l";"m";"n";"o";"p";"q"]%string
                                 ++ [None; Some (bs "a"); Some (bs "b")]
            | _ => False
            end
  | _ => False
  end.
Proof. vm_compute. reflexivity. Qed.
