(** * Runs of the whole program out of the box: proofs *)

From Verif Require Import Base BaseFacts Table CleanString CleanSpec Filter Filelist Prog ProgFacts Spoof SequenceSpec SequenceProofs
  File FS FSProofs FileSpec FilelistProofs FileProofs FileProofs2
  RunSpec RunProofs RunProofs3 TidySpec TidyProofs TidyProofs2 TidyProofs3 TidyProofs4 TidyProofs5 TidyProofs6 SeveralSpec TidyProofs7
  Inline ConfigParse ConfigLoad ConfigLoadSpec ConfigLoadProofs Options OptionsSpec OptionsProofs Startup Main MainSpec MainProofs TidyRunSpec.

Local Open Scope nat_scope.

Lemma main_ret {S} (step : S -> forall c, answer c -> S -> Prop) (interference : S -> S -> Prop) fuel sy argv s tr s' n :
  runs step interference (main fuel sy argv) s tr s' (Ret n) ->
  n = 0%N /\ exists ws fs o c said tr2 s1, started sy argv ws fs o c /\ tr = map heard said ++ tr2 /\
     runs step interference (told said (Ret tt)) s (map heard said) s1 (Ret tt) /\
     runs step interference (work fuel o fs (o_files_to_ignore o)) s1 tr2 s' (Ret n).
Proof.
  intros R. split; [exact (main_status _ _ _ _ _ (runs_trace _ _ _ _ _ _ _ R))|].
  destruct (main_cases fuel sy argv) as [(w & E)|(ws & fs & o & c & said & St & E)].
  - elim (ends_ret _ _ _ _ E (runs_trace _ _ _ _ _ _ _ R)).
  - rewrite E in R. apply runs_told in R. destruct R as [(l1 & [|[out text] l2] & -> & N & _ & _ & X)|(tr2 & s1 & -> & R1 & R2)].
    + now elim N.
    + discriminate X.
    + exists ws, fs, o, c, said, tr2, s1. splits; auto.
Qed.

Lemma told_keeps w l : forall s tr s' r, runs (steady_step w) alone (told l (Ret tt)) s tr s' r -> tree_of s' = tree_of s.
Proof.
  induction l as [|[out text] l IH]; intros s tr s' r R; simpl in R.
  - destruct R as [(_ & -> & _)|[]]. reflexivity.
  - destruct R as [(_ & -> & _)|(s0 & x & s1 & t1 & E & St & _ & R)]; [reflexivity|]. red in E. subst s0.
    rewrite (IH _ _ _ _ R). destruct St as [St _]. exact St.
Qed.

Lemma shipped_same pf name seq1 seq2 : shipped name seq1 -> shipped name seq2 -> In name [bs "default"; bs "lower"; bs "utf_8"] ->
  forall n c, sequence_run_filters pf (Some seq1) (Some n) = Ok (Some c) -> sequence_run_filters pf (Some seq2) (Some n) = Ok (Some c).
Proof.
  intros S1 S2 I n c. rewrite !sequence_run. replace (s_filters seq2) with (s_filters seq1); auto.
  destruct I as [<-|[<-|[<-|[]]]].
  - now rewrite (shipped_default _ S1), (shipped_default _ S2).
  - now rewrite (shipped_lower _ S1), (shipped_lower _ S2).
  - now rewrite (shipped_utf_8 _ S1), (shipped_utf_8 _ S2).
Qed.

(** The options that a plain request leads to *)
Record plain_options (sy : system) (ws : list wish) (name : str) (o : options_t) : Prop := {
  po_dry : o_dry_run o = false;
  po_recurse : o_recurse o = true <-> In Recursive ws;
  po_special : o_special o = true <-> In Special ws;
  po_inline : o_is_inline_mode o = false;
  po_platform : o_platform o = m_platform sy;
  po_sequence : exists seq, shipped name seq /\ o_sequence_to_use o = Some seq;
  po_usable : usable_list (o_files_to_ignore o);
  po_items : items (o_files_to_ignore o) = [bs "{arch}"]
}.

Lemma plain_started sy argv ws fs name ws' fs' o c : plain_request sy argv ws fs name -> started sy argv ws' fs' o c ->
  fs' = fs /\ plain_options sy ws name o.
Proof.
  intros [A Pr Mo Ea Co NF Na Wa Lo] [SA SS SW SD SR SSp SV SI SF SP SC SSe SIg].
  destruct (asks_unique _ _ _ _ _ _ A SA) as [-> ->]. split; [reflexivity|].
  destruct SC as (file & printed & F1 & F2). assert (file = None) as -> by (eapply last_of_unique; eauto).
  rewrite config_file_load_spec, NF in F2. cbn [read_all] in F2. apply (f_equal snd) in F2. cbn [wbind fst snd] in F2. injection F2 as <-.
  destruct SSe as (nm & s0 & s1 & W & Ch & Ld & Q). destruct SIg as (U & _ & It).
  constructor; auto.
  - destruct (o_dry_run o); auto. elim Ea. now apply SD.
  - destruct (o_is_inline_mode o); auto. destruct (proj1 SI eq_refl); contradiction.
  - exists s1. split; auto. destruct Ld as (find & _ & Rv). exists (e_datadir (m_env sy)), find, s0. split; auto.
    assert (U2 : forall a b, wanted_sequence sy ws a -> wanted_sequence sy ws b -> a = b).
    { intros a b (x & X1 & ->) (y & Y1 & ->). now rewrite (last_of_unique _ _ _ _ X1 Y1). }
    destruct Wa as [Wa|[-> Wa]]; rewrite (U2 _ _ W Wa) in Ch; auto.
Qed.

Lemma makes_cleans sy ws name o n c : plain_options sy ws name o -> In name [bs "default"; bs "lower"; bs "utf_8"] ->
  (makes (m_platform sy) name n c <-> cleans_to o n c).
Proof.
  intros P I. destruct (po_sequence _ _ _ _ P) as (seq & Sh & Q). unfold cleans_to. rewrite Q, (po_platform _ _ _ _ P). split.
  - intros (seq' & Sh' & E). eapply shipped_same; [exact Sh'|exact Sh| |]; auto.
  - intros E. exists seq. auto.
Qed.

Lemma plain_separate sy ws name o w t args : plain_options sy ws name o -> apart w ws t args -> separate w o t args.
Proof.
  intros P [ND H]. split; auto. intros p i I. destruct (H p i I) as (K & S). split; auto.
  destruct K as [K|[K|K]]; [now left|right; now left|right; right]. now apply (po_special _ _ _ _ P).
Qed.

Lemma gone_entered sy ws name o w t i d : plain_options sy ws name o -> gone_through w ws t i d -> entered w o [bs "{arch}"] t i d.
Proof.
  intros P. induction 1 as [|l H IH Il R K Hd Ar]; [constructor|]. apply entered_next; auto.
  - now apply (po_recurse _ _ _ _ P).
  - intros [X|[X|[]]]; [contradiction|]. now elim Ar.
Qed.

Lemma settled_home sy ws name o w names t q i : plain_options sy ws name o -> In name [bs "default"; bs "lower"; bs "utf_8"] ->
  settled w o names t q i -> at_home w (m_platform sy) name t q i.
Proof.
  intros P I (L & WR & _). split; auto. intros dir b c LC B0 B1 B2 M. apply (makes_cleans _ _ _ _ _ _ P I) in M.
  destruct (list_eq_dec byte_dec c b) as [E|Ne]; [now left|]. right.
  assert (Pr : proper_rename o q (dir ++ c)) by (exists dir, b, c; splits; auto).
  destruct (lstat_inode w t (dir ++ c)) as [j|] eqn:E.
  - exists j. split; auto. destruct (inode_eqb j i) eqn:Ej; [apply inode_eqb_eq in Ej; subst j; right|left; now apply inode_eqb_neq].
    apply N.nle_gt. intros X. apply (WR (dir ++ c)). split; auto. exists i. auto.
  - elim (WR (dir ++ c)). split; auto. exists i. auto.
Qed.

Lemma plain_run w fuel sy argv ws args name s tr s' n :
  all_searchable w -> (forall d a b, fold_name w d a = fold_name w d b -> a = b) ->
  wf_tree w (tree_of s) -> no_loops w (tree_of s) -> well_named (tree_of s) ->
  plain_request sy argv ws (map fst args) name -> apart w ws (tree_of s) args ->
  runs (steady_step w) alone (main fuel sy argv) s tr s' (Ret n) -> Forall (unhindered w) tr ->
  n = 0%N /\ good w (tree_of s') /\ exists o qs, plain_options sy ws name o /\ settles o /\
    Forall2 (fun arg q => (q = fst arg \/ In (Ev (Rename (fst arg) q) None) tr) /\ settled w o [bs "{arch}"] (tree_of s') q (snd arg)) args qs.
Proof.
  intros AS Fo W NL WN P Ap R Un. destruct (main_ret _ _ _ _ _ _ _ _ _ R) as (-> & ws' & fs & o & c & said & tr2 & s1 & St & -> & R1 & R2).
  destruct (plain_started _ _ _ _ _ _ _ _ _ P St) as (-> & PO).
  assert (T := told_keeps _ _ _ _ _ _ R1).
  destruct (work_files _ _ _ _ _ _ _ _ _ _ (po_inline _ _ _ _ PO) R2) as (q & Rq & Q).
  assert (exists a, q = Ret a) as (a & ->).
  { destruct Q as [[E _]|E]; auto. destruct q; try discriminate. eauto. }
  destruct (po_sequence _ _ _ _ PO) as (seq & Sh & Es).
  assert (Se : settles o).
  { apply (shipped_settles o name seq); auto; [apply (pr_name _ _ _ _ _ P)|]. rewrite (po_platform _ _ _ _ PO). apply (pr_locale _ _ _ _ _ P). }
  apply Forall_app in Un. destruct Un as [_ Un]. rewrite <- T in W, NL, WN, Ap.
  destruct (run_several _ _ _ _ _ _ _ _ _ AS Se (case_respected w o Fo) (po_dry _ _ _ _ PO) (po_usable _ _ _ _ PO) W NL WN
    (plain_separate _ _ _ _ _ _ _ PO Ap) Rq Un) as (G & qs & F2).
  splits; auto. exists o, qs. splits; auto. rewrite (po_items _ _ _ _ PO) in F2.
  clear - F2. induction F2 as [|x q l l' [[X|X] Y] F2 IH]; constructor; auto. split; auto. right. apply in_app_iff. auto.
Qed.

Lemma forall2_in {A B} (P : A -> B -> Prop) l l' y : Forall2 P l l' -> In y l' -> exists x, In x l /\ P x y.
Proof.
  induction 1 as [|a b l l' H F IH]; intros I; [destruct I|]. destruct I as [->|I]; [exists a; split; [now left|auto]|].
  destruct (IH I) as (x & X & Y). exists x. split; [now right|auto].
Qed.

Lemma forall2_in_l {A B} (P : A -> B -> Prop) l l' x : Forall2 P l l' -> In x l -> exists y, In y l' /\ P x y.
Proof.
  induction 1 as [|a b l l' H F IH]; intros I; [destruct I|]. destruct I as [->|I]; [exists b; split; [now left|auto]|].
  destruct (IH I) as (y & X & Y). exists y. split; [now right|auto].
Qed.

Lemma plain_run_tidies w fuel sy argv ws args name s tr s' n :
  all_searchable w -> (forall d a b, fold_name w d a = fold_name w d b -> a = b) ->
  wf_tree w (tree_of s) -> no_loops w (tree_of s) -> well_named (tree_of s) ->
  plain_request sy argv ws (map fst args) name -> apart w ws (tree_of s) args ->
  runs (steady_step w) alone (main fuel sy argv) s tr s' (Ret n) -> Forall (unhindered w) tr ->
  n = 0%N /\
  (exists qs, Forall2 (fun arg q => (q = fst arg \/ In (Ev (Rename (fst arg) q) None) tr) /\
                                   at_home w (m_platform sy) name (tree_of s') q (snd arg)) args qs) /\
  forall i l, In i (map snd args) -> kind_of w i = KDir -> In l (links (tree_of s')) -> gone_through w ws (tree_of s') i (l_dir l) ->
    (kind_of w (l_target l) = KDir \/ kind_of w (l_target l) = KReg \/ In Special ws) ->
    hidden (l_name l) \/ l_name l = bs "{arch}" \/ tidy w (m_platform sy) name (tree_of s') l.
Proof.
  intros AS Fo W NL WN P Ap R Un.
  destruct (plain_run _ _ _ _ _ _ _ _ _ _ _ AS Fo W NL WN P Ap R Un) as (-> & G & o & qs & PO & Se & F2).
  assert (Na := pr_name _ _ _ _ _ P).
  splits; auto.
  - exists qs. clear - F2 PO Na. induction F2 as [|x q l l' [X Y] F2 IH]; constructor; auto. split; auto. eapply settled_home; eauto.
  - intros i l Ii Ki Il GT K. apply in_map_iff in Ii. destruct Ii as ([p j] & E & Ip). simpl in E. subst j.
    destruct (forall2_in_l _ _ _ _ F2 Ip) as (q & _ & _ & _ & _ & A). simpl in A.
    destruct (A Ki l Il (gone_entered _ _ _ _ _ _ _ _ PO GT)) as [[H|[H|[]]]|[(H1 & H2 & H3)|(c & E & H)]]; auto.
    + exfalso. destruct K as [K|[K|K]]; try contradiction. apply (po_special _ _ _ _ PO) in K. congruence.
    + right. right. apply (makes_cleans _ _ _ _ _ _ PO Na) in E.
      assert (Po : portable c).
      { destruct E as (seq & Sh & E). destruct (proj2 (proj2 G) l Il) as ((_ & _ & NN & LN) & _).
        eapply (shipped_portable (m_platform sy) name seq (l_name l) c); eauto.
        - simpl in Na |- *. tauto.
        - apply (pr_locale _ _ _ _ _ P).
        - unfold small, strlen. lia. }
      destruct H as [->|H]; [now left|]. right. exists c. auto.
Qed.

(** ** Once more *)

Lemma orderly_alike w o o' t q : o_recurse o' = o_recurse o -> o_special o' = o_special o -> (forall n c, cleans_to o n c -> cleans_to o' n c) ->
  orderly w o t q -> orderly w o' t q.
Proof.
  intros Er Es C Or i L K l Il En.
  assert (En' : entered w o [] t i (l_dir l)).
  { clear - En Er. induction En as [|l0 H IH I0 R K Pa]; [constructor|]. apply entered_next; auto. congruence. }
  destruct (Or i L K l Il En') as [H|[H|(c & E & H)]]; [now left| |].
  - right. left. now rewrite Es.
  - right. right. exists c. auto.
Qed.

Lemma inline_keeps w {A} (p : prog A) : forall s tr s' p', only reads_or_prints p -> runs (steady_step w) alone p s tr s' p' -> tree_of s' = tree_of s /\ TidySpec.no_rename tr.
Proof.
  induction p as [a|x|c k IH]; intros s tr s' p' O R; simpl in R.
  - destruct R as [(-> & -> & _)|[]]. split; auto. apply no_rename_nil.
  - destruct R as [(-> & -> & _)|[]]. split; auto. apply no_rename_nil.
  - destruct R as [(-> & -> & _)|(s0 & r & s1 & t1 & E & St & -> & R)]; [split; auto; apply no_rename_nil|]. destruct O as [O1 O2].
    red in E. subst s0. destruct (IH _ _ _ _ _ (O2 r) R) as [T N]. destruct St as [St _]. apply fs_step_quiet in St; [|destruct c; simpl in *; auto].
    split; [congruence|]. intros old new [X|X]; [|now apply (N old new)]. destruct c; try discriminate. elim O1.
Qed.

Lemma plain_run_again w fuel1 fuel2 sy argv1 ws args name s tr1 s1 n1 :
  all_searchable w -> (forall d a b, fold_name w d a = fold_name w d b -> a = b) ->
  wf_tree w (tree_of s) -> no_loops w (tree_of s) -> well_named (tree_of s) ->
  plain_request sy argv1 ws (map fst args) name -> apart w ws (tree_of s) args ->
  runs (steady_step w) alone (main fuel1 sy argv1) s tr1 s1 (Ret n1) -> Forall (unhindered w) tr1 ->
  (forall i l, In i (map snd args) -> In l (links (tree_of s1)) -> below (tree_of s1) i (l_dir l) -> l_name l <> bs "{arch}") ->
  exists qs, Forall2 (fun arg q => q = fst arg \/ In (Ev (Rename (fst arg) q) None) tr1) args qs /\
    forall argv2 fs s2 tr2 s3 n2, asks (posix_env sy) (tl argv2) ws fs -> incl fs qs -> tree_of s2 = tree_of s1 ->
      runs (steady_step w) alone (main fuel2 sy argv2) s2 tr2 s3 (Ret n2) ->
      tree_of s3 = tree_of s2 /\ TidySpec.no_rename tr2.
Proof.
  intros AS Fo W NL WN P Ap R Un No.
  destruct (plain_run _ _ _ _ _ _ _ _ _ _ _ AS Fo W NL WN P Ap R Un) as (-> & G & o & qs & PO & Se & F2).
  assert (Na := pr_name _ _ _ _ _ P).
  exists qs. split; [clear - F2; induction F2 as [|x q l l' [X Y] F2 IH]; constructor; auto|].
  intros argv2 fs s2 tr2 s3 n2 A2 Inc T R2.
  destruct (main_ret _ _ _ _ _ _ _ _ _ R2) as (-> & ws' & fs' & o2 & c & said & tr3 & s4 & St & -> & R3 & R4).
  assert (T4 := told_keeps _ _ _ _ _ _ R3).
  assert (H : tree_of s3 = tree_of s4 /\ TidySpec.no_rename tr3).
  2:{ destruct H as [H1 H2]. split; [congruence|]. intros old new X. apply in_app_iff in X. destruct X as [X|X]; [|now apply (H2 old new)].
      apply in_map_iff in X. destruct X as ([? ?] & E & _). discriminate E. }
  destruct (o_is_inline_mode o2) eqn:Im.
  { eapply inline_keeps; [apply work_inline; exact Im|exact R4]. }
  assert (P2 : plain_request sy argv2 ws fs name).
  { destruct P as [X1 X2 X3 X4 X5 X6 X7 X8 X9]. constructor; auto. intros Y.
    assert (o_is_inline_mode o2 = true) by (apply (st_inline _ _ _ _ _ _ St); now left). congruence. }
  destruct (plain_started _ _ _ _ _ _ _ _ _ P2 St) as (-> & PO2).
  destruct (work_files _ _ _ _ _ _ _ _ _ _ Im R4) as (q & Rq & Q).
  assert (exists a, q = Ret a) as (a & ->).
  { destruct Q as [[E _]|E]; auto. destruct q; try discriminate. eauto. }
  assert (Cl : forall n c, cleans_to o n c -> cleans_to o2 n c).
  { intros n c0 E. apply (makes_cleans _ _ _ _ _ _ PO Na) in E. now apply (makes_cleans _ _ _ _ _ _ PO2 Na) in E. }
  assert (Cl' : forall n c, cleans_to o2 n c -> cleans_to o n c).
  { intros n c0 E. apply (makes_cleans _ _ _ _ _ _ PO2 Na) in E. now apply (makes_cleans _ _ _ _ _ _ PO Na) in E. }
  assert (Se2 : settles o2).
  { intros n c0 Fn E. destruct (Se n c0 Fn (Cl' _ _ E)). split; auto. }
  assert (Er : o_recurse o2 = o_recurse o).
  { pose proof (po_recurse _ _ _ _ PO). pose proof (po_recurse _ _ _ _ PO2). destruct (o_recurse o), (o_recurse o2); intuition congruence. }
  assert (Es : o_special o2 = o_special o).
  { pose proof (po_special _ _ _ _ PO). pose proof (po_special _ _ _ _ PO2). destruct (o_special o), (o_special o2); intuition congruence. }
  assert (T5 : tree_of s4 = tree_of s1) by congruence.
  eapply run_several_idle; [exact AS|exact Se2|apply (po_usable _ _ _ _ PO2)|now rewrite T5| |exact Rq].
  rewrite T5. intros x Ix. apply Inc in Ix. destruct (forall2_in _ _ _ _ F2 Ix) as ([p i] & Ip & _ & Lq & WR & A). simpl in *. split.
  - apply (orderly_alike w o); auto. intros j Lj Kj. assert (j = i) by congruence. subst j.
    eapply no_listed; [exact G| |apply A, Kj]. intros l Il Bl [X|[]]. apply (No i l); auto. change i with (snd (p, i)). now apply in_map.
  - intros new (Pr & X). apply (WR new). split; auto. destruct Pr as (dir & b & cl & L1 & L2 & L3 & L4 & L5 & L6 & L7).
    exists dir, b, cl. splits; auto. now apply Cl'.
Qed.
