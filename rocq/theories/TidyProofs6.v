(** * Complete runs on a directory *)

From Verif Require Import Base BaseFacts Table CleanString CleanSpec Filter Filelist Prog ProgFacts Spoof SequenceSpec SequenceProofs
  File FS FSProofs FileSpec FilelistProofs FileProofs FileProofs2
  RunSpec RunProofs RunProofs3 TidySpec TidyProofs TidyProofs2 TidyProofs3 TidyProofs4 TidyProofs5.

Local Open Scope nat_scope.

Lemma run_one w fuel o f ign s tr s' ign' :
  usable_list ign -> runs (steady_step w) alone (process_arguments fuel o [f] ign) s tr s' (Ret ign') ->
  exists k, argument_done o (items ign) (cursor ign) f tr k /\ steps w s tr s'.
Proof.
  intros U R. assert (St : state_of (items ign) (cursor ign) ign) by (split; [now apply usable_good|auto]).
  pose proof (runs_trace _ _ _ _ _ _ _ R) as T. apply runs_steps in R.
  destruct (arguments_forward _ _ _ _ _ _ _ _ St T) as (k & _ & A). inversion A; subst.
  match goal with H : arguments_done _ _ _ [] _ _ |- _ => inversion H; subst end. rewrite app_nil_r in *. eauto.
Qed.

Lemma run_tidies w fuel o f i ign s tr s' ign' :
  all_searchable w -> settles o -> respects_case w o -> o_dry_run o = false -> usable_list ign ->
  wf_tree w (tree_of s) -> no_loops w (tree_of s) -> well_named (tree_of s) -> path_to w (tree_of s) f i ->
  runs (steady_step w) alone (process_arguments fuel o [f] ign) s tr s' (Ret ign') -> Forall (unhindered w) tr ->
  exists q, (q = f \/ In (Ev (Rename f q) None) tr) /\ good w (tree_of s') /\ lstat_inode w (tree_of s') q = Some i /\
    (forall new, ~ would_rename w o (tree_of s') q new) /\ all_in_order w o (items ign) (tree_of s') i.
Proof.
  intros AS Se Rc Dry U W NL WN (Ls & K & C & NT & FN) R Un. destruct (run_one _ _ _ _ _ _ _ _ _ U R) as (k & A & St).
  eapply argument_ok; eauto. exact (conj W (conj NL WN)).
Qed.

Lemma run_idle w fuel o q ign s tr s' ign' :
  all_searchable w -> settles o -> usable_list ign -> good w (tree_of s) ->
  orderly w o (tree_of s) q -> (forall new, ~ would_rename w o (tree_of s) q new) ->
  runs (steady_step w) alone (process_arguments fuel o [q] ign) s tr s' (Ret ign') ->
  tree_of s' = tree_of s /\ no_rename tr.
Proof.
  intros AS Se U G Or WR R. destruct (run_one _ _ _ _ _ _ _ _ _ U R) as (k & A & St).
  destruct (argument_idle w o (items ign) (tree_of s) AS Se G _ _ _ _ s s' eq_refl Or WR A St) as ([T _] & N). auto.
Qed.

Lemma run_again w fuel1 fuel2 o f i ign1 ign2 s tr1 s1 r1 :
  all_searchable w -> settles o -> respects_case w o -> o_dry_run o = false -> usable_list ign1 ->
  wf_tree w (tree_of s) -> no_loops w (tree_of s) -> well_named (tree_of s) -> path_to w (tree_of s) f i ->
  runs (steady_step w) alone (process_arguments fuel1 o [f] ign1) s tr1 s1 (Ret r1) -> Forall (unhindered w) tr1 ->
  (forall l, In l (links (tree_of s1)) -> below (tree_of s1) i (l_dir l) -> ~ In (l_name l) (items ign1)) ->
  exists q, (q = f \/ In (Ev (Rename f q) None) tr1) /\
    forall s2 tr2 s3 r2, tree_of s2 = tree_of s1 -> usable_list ign2 ->
      runs (steady_step w) alone (process_arguments fuel2 o [q] ign2) s2 tr2 s3 (Ret r2) ->
      tree_of s3 = tree_of s2 /\ no_rename tr2.
Proof.
  intros AS Se Rc Dry U W NL WN Pa R Un No.
  assert (K : kind_of w i = KDir) by apply Pa.
  destruct (run_tidies _ _ _ _ _ _ _ _ _ _ AS Se Rc Dry U W NL WN Pa R Un) as (q & Q & G & Ls & WR & A).
  exists q. split; auto. intros s2 tr2 s3 r2 T U2 R2. rewrite <- T in *.
  eapply run_idle; eauto. intros j Lj Kj. assert (j = i) by congruence. subst j. eapply no_listed; eauto.
Qed.

(** ** The shipped sequences *)

Lemma shipped_settles o name seq :
  In name [bs "default"; bs "lower"; bs "utf_8"] -> shipped name seq ->
  (name = bs "lower" -> p_ctype (o_platform o) = c_locale) -> o_sequence_to_use o = Some seq -> settles o.
Proof.
  intros Hn Sh CT Hs n c (_ & _ & NN & LN) E. unfold cleans_to in *. rewrite Hs in *.
  assert (LB : (strlen n < 2 ^ 46)%N) by (unfold strlen; lia).
  assert (Idem := shipped_idempotent _ _ _ _ _ Hn CT Sh NN LB E). split; auto.
  assert (Po : portable c).
  { eapply (shipped_portable (o_platform o) name seq n c); eauto.
    - simpl in Hn |- *. tauto.
    - unfold small. eapply N.lt_trans; [exact LB|]. reflexivity. }
  intros X. destruct Po as (F & _). rewrite Forall_forall in F. apply (F _ X). vm_compute. tauto.
Qed.

Lemma case_respected w o : (forall d a b, fold_name w d a = fold_name w d b -> a = b) -> respects_case w o.
Proof. intros H d a b a' b' A B E. apply H in E. subst b. unfold cleans_to in *. rewrite A in B. now injection B as ->. Qed.

Lemma run_tidies_plain w fuel o f i ign s tr s' ign' :
  all_searchable w -> settles o -> respects_case w o -> o_dry_run o = false -> usable_list ign ->
  wf_tree w (tree_of s) -> no_loops w (tree_of s) -> well_named (tree_of s) -> path_to w (tree_of s) f i ->
  runs (steady_step w) alone (process_arguments fuel o [f] ign) s tr s' (Ret ign') -> Forall (unhindered w) tr ->
  exists q, (q = f \/ In (Ev (Rename f q) None) tr) /\ lstat_inode w (tree_of s') q = Some i /\
    (forall new, ~ would_rename w o (tree_of s') q new) /\ all_in_order w o (items ign) (tree_of s') i.
Proof.
  intros AS Se Rc Dry U W NL WN Pa R Un.
  destruct (run_tidies _ _ _ _ _ _ _ _ _ _ AS Se Rc Dry U W NL WN Pa R Un) as (q & Q & _ & H). eauto.
Qed.

Lemma run_tidies_shipped w fuel o name seq f i ign s tr s' ign' l :
  In name [bs "default"; bs "lower"; bs "utf_8"] -> shipped name seq ->
  (name = bs "lower" -> p_ctype (o_platform o) = c_locale) -> o_sequence_to_use o = Some seq ->
  all_searchable w -> (forall d a b, fold_name w d a = fold_name w d b -> a = b) -> o_dry_run o = false -> usable_list ign ->
  wf_tree w (tree_of s) -> no_loops w (tree_of s) -> well_named (tree_of s) -> path_to w (tree_of s) f i ->
  runs (steady_step w) alone (process_arguments fuel o [f] ign) s tr s' (Ret ign') -> Forall (unhindered w) tr ->
  In l (links (tree_of s')) -> entered w o (items ign) (tree_of s') i (l_dir l) ->
  kind_of w (l_target l) = KDir \/ kind_of w (l_target l) = KReg ->
  passed_over (items ign) (l_name l) \/ portable (l_name l) \/
  exists c, cleans_to o (l_name l) c /\ portable c /\
    (c = [] \/ exists j, lookup w (tree_of s') (l_dir l) c = Some j /\
       (j <> l_target l \/ (1 < st_nlink (stat_of w (tree_of s') (l_target l)))%N)).
Proof.
  intros Hn Sh CT Hs AS Fo Dry U W NL WN Pa R Un Il En K.
  assert (Se := shipped_settles o name seq Hn Sh CT Hs).
  destruct (run_tidies _ _ _ _ _ _ _ _ _ _ AS Se (case_respected w o Fo) Dry U W NL WN Pa R Un) as (q & _ & G & _ & _ & A).
  destruct (A l Il En) as [H|[(H1 & H2 & _)|(c & E & H)]]; auto; [tauto|].
  assert (Po : portable c).
  { unfold cleans_to in E. rewrite Hs in E. destruct (proj2 (proj2 G) l Il) as ((_ & _ & NN & LN) & _).
    eapply (shipped_portable (o_platform o) name seq (l_name l) c); eauto.
    - simpl in Hn |- *. tauto.
    - unfold small, strlen. lia. }
  destruct H as [<-|H]; [auto|]. right. right. exists c. auto.
Qed.

Lemma run_idle_plain w fuel o q i ign s tr s' ign' :
  all_searchable w -> settles o -> usable_list ign ->
  wf_tree w (tree_of s) -> no_loops w (tree_of s) -> well_named (tree_of s) ->
  lstat_inode w (tree_of s) q = Some i -> kind_of w i = KDir ->
  (forall new, ~ would_rename w o (tree_of s) q new) -> all_in_order w o [] (tree_of s) i ->
  runs (steady_step w) alone (process_arguments fuel o [q] ign) s tr s' (Ret ign') ->
  tree_of s' = tree_of s /\ no_rename tr.
Proof.
  intros AS Se U W NL WN Ls K WR A R. eapply run_idle; eauto.
  - exact (conj W (conj NL WN)).
  - intros j Lj _. assert (j = i) by congruence. now subst j.
Qed.
