(** * Proofs about processing files: traces *)

From Verif Require Import Base BaseFacts CleanString CleanUtf8 Table CleanSpec Utf8Spec CleanStringProofs CleanUtf8Proofs
  Filter Filelist Prog ProgFacts Warnings WarningsProofs File FS FileSpec FilelistProofs SequenceSpec SequenceProofs.

Local Arguments filter_run : simpl never.
Local Arguments sequence_run_filters : simpl never.

(** ** Paths *)

Lemma split_path_spec p : forall d b, split_path p = (d, b) -> last_component p d b.
Proof.
  induction p as [|c r IH]; simpl; intros d b E.
  - injection E as <- <-. repeat split; auto.
  - destruct (split_path r) as [d' b'] eqn:S. specialize (IH d' b' eq_refl). destruct IH as (E1 & N & D).
    destruct d' as [|x d'].
    + simpl in E1. subst b'. destruct (beq c "/") eqn:B.
      * apply beq_eq in B. subst c. injection E as <- <-. repeat split; auto. right. now exists [].
      * apply beq_neq in B. injection E as <- <-. repeat split; auto.
        simpl. intros [E|I]; [now apply B | now apply N].
    + injection E as <- <-. repeat split; auto.
      * rewrite E1. reflexivity.
      * right. destruct D as [D|(y & D)]; [discriminate|]. exists (c :: y). rewrite D. reflexivity.
Qed.

Lemma last_component_fun p d b d' b' : last_component p d b -> last_component p d' b' -> d = d' /\ b = b'.
Proof.
  intros (E & N & D) (E' & N' & D').
  assert (G : forall x b y b', x ++ b = y ++ b' -> ~ In "/"%byte b -> ~ In "/"%byte b' ->
    (x = [] \/ exists d, x = d ++ bs "/") -> (y = [] \/ exists d, y = d ++ bs "/") -> (length x <= length y)%nat -> x = y).
  { intros x b1 y b2 Eq N1 N2 D1 D2 L.
    assert (P : exists z, y = x ++ z).
    { destruct (app_eq_app _ _ _ _ Eq) as (l & [[E1 _]|[E1 _]]); [|now exists l].
      exists []. rewrite E1 in L. rewrite app_length in L. destruct l; [|simpl in L; lia].
      now rewrite E1, !app_nil_r. }
    destruct P as (z & ->). destruct z as [|c z]; [now rewrite app_nil_r|].
    rewrite <- app_assoc in Eq. apply app_inv_head in Eq. exfalso. apply N1. rewrite Eq.
    apply in_app_iff. left. destruct D2 as [D2|(w & D2)].
    - destruct x; discriminate.
    - assert (I : In "/"%byte (c :: z)).
      { assert (H : exists q, c :: z = q ++ bs "/").
        { clear - D2. destruct (exists_last (l := c :: z)) as (q & a & Eq); [discriminate|].
          rewrite Eq in D2. rewrite app_assoc in D2. apply app_inj_tail in D2. destruct D2 as [_ ->].
          exists q. exact Eq. }
        destruct H as (q & ->). apply in_app_iff. right. now left. }
      exact I. }
  assert (d = d').
  { destruct (Nat.le_ge_cases (length d) (length d')).
    - apply (G d b d' b'); auto. exact (eq_trans (eq_sym E) E').
    - symmetry. apply (G d' b' d b); auto. exact (eq_trans (eq_sym E') E). }
  subst d'. split; auto. rewrite E in E'. now apply app_inv_head in E'.
Qed.

Lemma split_path_of p d b : last_component p d b -> split_path p = (d, b).
Proof.
  intros L. destruct (split_path p) as [d' b'] eqn:E. apply split_path_spec in E.
  destruct (last_component_fun _ _ _ _ _ L E) as [-> ->]. reflexivity.
Qed.

Lemma is_protected_iff b : is_protected b = true <-> b = bs "." \/ b = bs "..".
Proof. unfold is_protected. rewrite orb_true_iff, !str_eqb_eq. reflexivity. Qed.

(** ** Nothing comes out of an empty name *)

Lemma filter_run_empty pf f o : filter_run pf f (Some []) = Ok (Some o) -> o = [].
Proof.
  unfold filter_run. intros E. destruct (f_cleaner f); try discriminate;
  match type of E with bind ?m _ = _ => destruct m eqn:C; simpl in E; try discriminate end;
  injection E as ->.
  - destruct (f_table f); [|discriminate]. rewrite clean_iso8859_1_eq in C. now apply store_inv in C.
  - unfold clean_lower in C. cbv zeta in C. rewrite lower_loop_wrs, write_all' in C. now apply store_inv in C.
  - apply max_length_incl in C. destruct o as [|c o]; [reflexivity|]. now destruct (C c (or_introl eq_refl)).
  - destruct (f_table f); [|discriminate]. rewrite clean_safe_eq in C. now apply store_inv in C.
  - vm_compute in C. now injection C.
  - destruct (f_table f) as [t|]; [|discriminate]. destruct (clean_utf_8_eq [] t) as (x & R & X).
    rewrite X in C. apply store_inv in C. subst o. remember (@nil byte) as z eqn:Ez in R. destruct R; try discriminate; auto.
    + exfalso. destruct H. discriminate.
  - apply store_wipeup in C. destruct o as [|c o]; [reflexivity|]. now destruct (C c (or_introl eq_refl)).
Qed.

Lemma run_filters_empty pf fs o : run_filters pf fs (Some []) = Ok (Some o) -> o = [].
Proof.
  intros E. apply applied_iff in E. remember (@nil byte) as s eqn:Es.
  revert Es. induction E as [s|f fs s m o E A IH]; intros ->; auto.
  apply filter_run_empty in E. rewrite <- E. now apply IH.
Qed.

Lemma sequence_run_empty pf seq o : sequence_run_filters pf seq (Some []) = Ok (Some o) -> o = [].
Proof. unfold sequence_run_filters. destruct seq; [|discriminate]. apply run_filters_empty. Qed.

(** ** Programs preserve an invariant if parse_file does *)

Definition quiet (c : call) : Prop := match c with Rename _ _ => False | _ => True end.

Section generic.
  Context {S : Type}.
  Variable step : S -> forall c, answer c -> S -> Prop.
  Variable interference : S -> S -> Prop.
  Variable I : list event -> S -> Prop.
  Variable J : list event -> S -> call -> Prop.
  Variable o : options_t.

  Notation wp := (wp step interference I J).

  Hypothesis quiet_J : forall tr s c, quiet c -> I tr s -> J tr s c.
  Hypothesis quiet_I : forall tr s c s0 r s1, quiet c -> I tr s -> interference s s0 -> step s0 c r s1 -> I (Ev c r :: tr) s1.

  Lemma wp_quiet {A} c (k : answer c -> prog A) Q tr s :
    quiet c -> I tr s -> (forall r tr s, I tr s -> wp (k r) Q tr s) -> wp (Call c k) Q tr s.
  Proof.
    intros Qc Hi H. apply wp_call; auto. intros s0 r s1 E St. apply H. eapply quiet_I; eauto.
  Qed.

  Lemma wp_quiet_bind {A} c (k : answer c -> prog A) Q tr s :
    quiet c -> I tr s -> (forall r tr s, I tr s -> wp (k r) Q tr s) -> wp (pbind (sys c) k) Q tr s.
  Proof. intros Qc Hi H. simpl. now apply wp_quiet. Qed.

  Lemma wp_print_bind {A} out text (k : unit -> prog A) Q tr s :
    I tr s -> (forall tr s, I tr s -> wp (k tt) Q tr s) -> wp (pbind (print out text) k) Q tr s.
  Proof. intros Hi H. simpl. apply (wp_quiet (Print out text)); simpl; auto. Qed.

  Hypothesis file_I : forall p tr s, I tr s -> wp (parse_file p o) (fun _ => I) tr s.

  Lemma walk_generic fuel :
    (forall filename ign tr s, I tr s -> wp (parse_dir fuel o filename ign) (fun _ => I) tr s) /\
    (forall filename h st ign tr s, I tr s -> wp (dir_loop fuel o filename h st ign) (fun _ => I) tr s).
  Proof.
    induction fuel as [|fuel [IHd IHl]].
    - split; intros; simpl; auto.
    - split.
      + intros filename ign tr s Hi. cbn [parse_dir].
        apply wp_quiet_bind; [exact Logic.I|assumption|]. intros [st|m] tr1 s1 H1; [|now apply wp_ret].
        destruct (negb (isdir st)); [now apply wp_ret|].
        apply wp_quiet_bind; [exact Logic.I|assumption|]. intros [h|em m] tr2 s2 H2.
        * apply wp_bind. eapply wp_mono; [|apply IHl; assumption]. cbv beta.
          intros ign' tr3 s3 _ H3. apply wp_quiet_bind; [exact Logic.I|assumption|]. intros _ tr4 s4 H4. now apply wp_ret.
        * apply wp_print_bind; [assumption|]. intros tr3 s3 H3. destruct em; simpl; auto.
      + intros filename h st ign tr s Hi. cbn [dir_loop].
        apply wp_quiet_bind; [exact Logic.I|assumption|]. intros [n|] tr1 s1 H1; [|now apply wp_ret].
        apply wp_bind, wp_lift; auto. intros [ig ign1] _.
        destruct ig; [now apply IHl|].
        apply wp_quiet_bind; [exact Logic.I|assumption|]. intros st' tr2 s2 H2.
        set (st1 := match st' with inl x => x | inr _ => st end). cbv zeta.
        apply wp_bind.
        eapply wp_mono with (Q := fun _ => I).
        { intros ign2 tr3 s3 _ H3. now apply IHl. }
        destruct (isdir st1).
        * apply wp_bind. eapply wp_mono; [|apply file_I; assumption]. cbv beta.
          intros work tr3 s3 _ H3. destruct (o_recurse o); [now apply IHd | now apply wp_ret].
        * destruct (isreg st1 || o_special o)%bool; [|now apply wp_ret].
          apply wp_bind. eapply wp_mono; [|apply file_I; assumption]. cbv beta.
          intros work tr3 s3 _ H3. now apply wp_ret.
  Qed.

  Lemma argument_generic fuel f ign tr s :
    I tr s -> wp (process_argument fuel o f ign) (fun _ => I) tr s.
  Proof.
    intros Hi. unfold process_argument.
    assert (G : forall tr s, I tr s -> wp
      (let! st := sys (Lstat f) in
       match st with
       | inr message => let! _ := print Stderr (f ++ bs ": " ++ message ++ [Nb 10]) in Ret ign
       | inl st =>
         if isdir st then let! work := parse_file f o in parse_dir fuel o work ign
         else if (isreg st || o_special o)%bool then let! _ := parse_file f o in Ret ign
         else Ret ign
       end) (fun _ => I) tr s).
    { clear tr s Hi. intros tr s Hi. apply wp_quiet_bind; [exact Logic.I|assumption|]. intros [st|m] tr1 s1 H1.
      - destruct (isdir st).
        + apply wp_bind. eapply wp_mono; [|apply file_I; assumption]. cbv beta.
          intros work tr2 s2 _ H2. now apply walk_generic.
        + destruct (isreg st || o_special o)%bool; [|now apply wp_ret].
          apply wp_bind. eapply wp_mono; [|apply file_I; assumption]. cbv beta.
          intros work tr2 s2 _ H2. now apply wp_ret.
      - apply wp_print_bind; [assumption|]. intros tr2 s2 H2. now apply wp_ret. }
    destruct (0 <? o_verbose o)%N; [|now apply G].
    apply wp_print_bind; auto.
  Qed.

  Lemma arguments_generic fuel files : forall ign tr s,
    I tr s -> wp (process_arguments fuel o files ign) (fun _ => I) tr s.
  Proof.
    induction files as [|f files IH]; intros ign tr s Hi; cbn [process_arguments].
    - now apply wp_ret.
    - apply wp_bind. eapply wp_mono; [|apply argument_generic; assumption]. cbv beta.
      intros ign' tr1 s1 _ H1. now apply IH.
  Qed.
End generic.

(** ** The renames parse_file asks for *)

Section one_file.
  Context {S : Type}.
  Variable step : S -> forall c, answer c -> S -> Prop.
  Variable interference : S -> S -> Prop.
  Variable I : list event -> S -> Prop.
  Variable J : list event -> S -> call -> Prop.
  Variable o : options_t.

  Notation wp := (wp step interference I J).

  (** To show something of parse_file it suffices to look at its calls in turn.  [K] is what
      the warnings at the beginning do not change. *)
  Lemma parse_file_wp (K : list event -> S -> Prop) p (Q : str -> list event -> S -> Prop) tr0 s0 :
    (forall tr s, K tr s -> I tr s) ->
    (forall tr s text, K tr s -> J tr s (Print Stderr text)) ->
    (forall tr s text s0 r s1, K tr s -> interference s s0 -> step s0 (Print Stderr text) r s1 ->
       K (Ev (Print Stderr text) r :: tr) s1) ->
    K tr0 s0 ->
    (forall tr s, K tr s -> Q p tr s) ->
    (forall new tr s, K tr s -> proper_rename o p new ->
      wp (Call (Lstat p) (fun old_stat =>
        match old_stat with
        | inr _ => Ret p
        | inl old =>
          let! new_stat := sys (Lstat new) in
          if match new_stat with inl new => is_other_file old new | inr _ => false end then
            let! _ := print Stderr (refusal p new (bs "file already exists")) in Ret p
          else
            let! _ := (if ((0 <? o_verbose o)%N || o_dry_run o)%bool
                       then print Stdout (announcement p new) else Ret tt) in
            if o_dry_run o then Ret p
            else
              let! err := sys (Rename p new) in
              match err with
              | Some message => let! _ := print Stderr (refusal p new message) in Ret p
              | None => Ret new
              end
        end)) Q tr s) ->
    wp (parse_file p o) Q tr0 s0.
  Proof.
    intros KI KJ KK Hk Hq H. unfold parse_file. destruct (split_path p) as [dir base] eqn:Sp.
    apply split_path_spec in Sp.
    rewrite talking_sequence, told_bind.
    refine (wp_told _ _ _ _ K KI KJ KK _ _ _ (sequence_stderr _ _ _) _ _ _ Hk). clear tr0 s0 Hk. intros tr s Hk.
    apply wp_bind, wp_lift; auto. intros cleaned E.
    destruct cleaned as [clean|]; [|now apply wp_ret; auto].
    destruct (is_protected base) eqn:P.
    { unfold sequence_run_filters in E. destruct (o_sequence_to_use o); discriminate. }
    destruct (str_eqb base clean) eqn:B; [now apply wp_ret; auto|].
    apply str_eqb_neq in B.
    apply H; auto. exists dir, base, clean. splits; auto.
    - intros ->. apply sequence_run_empty in E. now apply B.
    - intros ->. discriminate.
    - intros ->. discriminate.
  Qed.
End one_file.

Lemma parse_file_quiet {S} (step : S -> forall c, answer c -> S -> Prop) (interference : S -> S -> Prop) (I : list event -> S -> Prop) (J : list event -> S -> call -> Prop) o :
  (forall tr s c, quiet c -> I tr s -> J tr s c) ->
  (forall tr s c s0 r s1, quiet c -> I tr s -> interference s s0 -> step s0 c r s1 -> I (Ev c r :: tr) s1) ->
  (forall p new tr s, o_dry_run o = false -> proper_rename o p new -> I tr s ->
     (0 <? o_verbose o)%N = false \/ (exists tr', tr = announced p new :: tr') ->
     J tr s (Rename p new) /\
     forall s0 r s1, interference s s0 -> step s0 (Rename p new) r s1 -> I (Ev (Rename p new) r :: tr) s1) ->
  forall p tr s, I tr s -> wp step interference I J (parse_file p o) (fun _ => I) tr s.
Proof.
  intros QJ QI R p tr0 s0 Hi0. apply (parse_file_wp _ _ _ _ _ I); auto.
  { intros. apply QJ; [exact Logic.I|assumption]. }
  { intros. eapply QI; eauto. exact Logic.I. }
  clear tr0 s0 Hi0. intros new tr s Hi P.
  apply (wp_quiet _ _ _ _ QJ QI); [exact Logic.I|assumption|]. intros [old|m] tr1 s1 H1; [|now apply wp_ret].
  apply (wp_quiet _ _ _ _ QJ QI); [exact Logic.I|assumption|]. intros nst tr2 s2 H2.
  destruct (match nst with inl new => is_other_file old new | inr _ => false end).
  { apply (wp_print_bind _ _ _ _ QJ QI); auto. intros; now apply wp_ret. }
  assert (G : forall tr s, I tr s -> (o_dry_run o = false -> (0 <? o_verbose o)%N = false \/ (exists tr', tr = announced p new :: tr')) ->
    wp step interference I J (if o_dry_run o then Ret p
            else
              let! err := sys (Rename p new) in
              match err with
              | Some message => let! _ := print Stderr (refusal p new message) in Ret p
              | None => Ret new
              end) (fun _ => I) tr s).
  { clear tr s Hi tr1 s1 H1 tr2 s2 H2. intros tr s Hi An. destruct (o_dry_run o) eqn:D; [now apply wp_ret|].
    destruct (R p new tr s eq_refl P Hi (An eq_refl)) as [RJ RI].
    simpl. splits; auto. intros s0 r s1 E St. specialize (RI s0 r s1 E St).
    destruct r as [m|]; [|now apply wp_ret].
    apply (wp_quiet _ _ _ _ QJ QI); [exact Logic.I|assumption|]. intros _ tr3 s3 H3. now apply wp_ret. }
  destruct ((0 <? o_verbose o)%N || o_dry_run o)%bool eqn:V.
  - apply wp_call; [assumption | now apply QJ |]. intros s3 [] s4 E St. apply G.
    + eapply QI; eauto. exact Logic.I.
    + intros _. right. eexists. reflexivity.
  - simpl. apply G; auto. intros D. left. rewrite D, orb_false_r in V. exact V.
Qed.

(** ** Dry run (C20) *)

Lemma no_rename_app tr e : ~ Exists is_rename tr -> ~ is_rename e -> ~ Exists is_rename (e :: tr).
Proof. intros H1 H2 H. inversion H; auto. Qed.

Lemma dry_run_quiet fuel o files ign tr p' :
  o_dry_run o = true -> trace_of (process_arguments fuel o files ign) tr p' -> ~ Exists is_rename tr.
Proof.
  intros D T.
  assert (W : wp anything alone (fun tr _ => ~ Exists is_rename tr) (fun _ _ c => quiet c)
                (process_arguments fuel o files ign) (fun _ tr _ => ~ Exists is_rename tr) [] tt).
  { apply arguments_generic; auto.
    - intros tr0 s c s0 r s1 Q H _ _. apply no_rename_app; auto. destruct c; simpl in *; auto.
    - apply parse_file_quiet; auto.
      + intros tr0 s c s0 r s1 Q H _ _. apply no_rename_app; auto. destruct c; simpl in *; auto.
      + intros p new tr0 s D'. congruence.
    - intros H. inversion H. }
  apply (runs_inv _ _ _ _ _ _ _ _ _ _ W) in T. intros H. apply T. now apply Exists_rev.
Qed.

(** Without a rename the tree does not change. *)
Lemma fs_step_quiet w t c r t' : quiet c -> fs_step w t c r t' -> t' = t.
Proof. destruct c; simpl; try tauto; intros _ H; destruct H; auto. Qed.

Lemma dry_run_tree w fuel o files ign t tr t' p' :
  o_dry_run o = true -> runs (fs_step w) alone (process_arguments fuel o files ign) t tr t' p' -> t' = t.
Proof.
  intros D R.
  assert (W : wp (fs_step w) alone (fun _ x => x = t) (fun _ _ _ => True)
                (process_arguments fuel o files ign) (fun _ _ x => x = t) [] t).
  { apply arguments_generic; auto.
    - intros tr0 s c s0 r s1 Q -> -> St. now apply fs_step_quiet in St.
    - apply parse_file_quiet; auto.
      + intros tr0 s c s0 r s1 Q -> -> St. now apply fs_step_quiet in St.
      + intros p new tr0 s D'. congruence. }
  now apply (runs_inv _ _ _ _ _ _ _ _ _ _ W) in R.
Qed.

(** ** Every rename request is proper, and announced in verbose mode (C23, C28) *)

Lemma renames_proper fuel o files ign tr old new k :
  trace_of (process_arguments fuel o files ign) tr (Call (Rename old new) k) ->
  proper_rename o old new /\ o_dry_run o = false /\
  ((0 < o_verbose o)%N -> exists tr', tr = tr' ++ [announced old new]).
Proof.
  intros T.
  set (J := fun (tr : list event) (s : unit) (c : call) =>
    match c with
    | Rename old new => proper_rename o old new /\ o_dry_run o = false /\
        ((0 < o_verbose o)%N -> exists tr', tr = announced old new :: tr')
    | _ => True end).
  assert (QJ : forall tr s c, quiet c -> True -> J tr s c) by (intros ? ? []; simpl; tauto).
  assert (W : wp anything alone (fun _ _ => True) J
                (process_arguments fuel o files ign) (fun _ _ _ => True) [] tt).
  { apply (arguments_generic anything alone (fun _ _ => True) J o QJ); auto.
    apply parse_file_quiet; auto.
    intros p n tr0 s D P _ A. split; auto. simpl. splits; auto.
    intros V. destruct A as [A|A]; auto. apply N.ltb_ge in A. lia. }
  apply (runs_pending _ _ _ _ _ _ _ _ _ _ _ W) in T. simpl in T. destruct T as (P & D & A).
  splits; auto. intros V. destruct (A V) as (tr' & E). exists (rev tr').
  apply (f_equal (@rev event)) in E. rewrite rev_involutive in E. simpl in E. exact E.
Qed.
