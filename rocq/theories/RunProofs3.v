(** * Early ends, the bound on nesting, and completeness of directory walks *)

From Verif Require Import Warnings WarningsProofs Base BaseFacts CleanString CleanSpec Filter Spoof SequenceSpec SequenceProofs Filelist FilelistProofs Prog ProgFacts File FS FileSpec
  FileProofs FileProofs2 WalkProofs Utf8Spec ConfigLoad ConfigLoadSpec ConfigLoadProofs Options OptionsSpec OptionsProofs ConfigLex Startup StartProofs StartOptions Main MainSpec MainProofs RunSpec RunProofs RunProofs2.

Local Open Scope nat_scope.

(** ** What programs stop with *)

Section stops.
  (** Answers that are possible, and what must hold at a stop. *)
  Variable H : forall c, answer c -> Prop.
  Variable P : list event -> stop -> Prop.

  Fixpoint wps {A} (p : prog A) (Q : A -> list event -> Prop) (tr : list event) : Prop :=
    match p with
    | Ret a => Q a tr
    | Stop w => P tr w
    | Call c k => forall r, H c r -> wps (k r) Q (Ev c r :: tr)
    end.

  Lemma wps_bind {A B} (p : prog A) (f : A -> prog B) Q tr :
    wps p (fun a tr => wps (f a) Q tr) tr -> wps (pbind p f) Q tr.
  Proof.
    revert tr. induction p as [a|w|c k IH]; intros tr W; simpl in *; auto.
  Qed.

  Lemma wps_mono {A} (p : prog A) (Q Q' : A -> list event -> Prop) tr :
    (forall a tr, Q a tr -> Q' a tr) -> wps p Q tr -> wps p Q' tr.
  Proof.
    intros M. revert tr. induction p as [a|w|c k IH]; intros tr W; simpl in *; auto.
  Qed.

  Lemma wps_lift {A} (r : res A) (Q : A -> list event -> Prop) tr :
    match r with Ok a => Q a tr | UB u => P tr (StopUB u) | Exit n => P tr (StopExit n) end -> wps (lift r) Q tr.
  Proof. now destruct r. Qed.

  Lemma wps_told {A} l (p : prog A) Q : forall tr, wps p Q (rev (map heard l) ++ tr) -> wps (told l p) Q tr.
  Proof.
    induction l as [|[out text] l IH]; intros tr W; [exact W|]. cbn [told wps]. intros [] _. apply IH.
    cbn [map rev heard] in W. rewrite <- app_assoc in W. exact W.
  Qed.

  Lemma wps_sound {S A} (step : S -> forall c, answer c -> S -> Prop) (interference : S -> S -> Prop)
      (p : prog A) Q tr s tr' s' p' :
    (forall s c r s', step s c r s' -> H c r) ->
    wps p Q tr -> runs step interference p s tr' s' p' -> wps p' Q (rev tr' ++ tr).
  Proof.
    intros HH. revert tr s tr'. induction p as [a|w|c k IH]; intros tr s tr' W R; simpl in R.
    - destruct R as [(-> & -> & ->)|[]]. exact W.
    - destruct R as [(-> & -> & ->)|[]]. exact W.
    - destruct R as [(-> & -> & ->)|(s0 & r & s1 & t & _ & St & -> & R)]; [exact W|].
      simpl. rewrite <- app_assoc. simpl. eapply IH; eauto.
  Qed.
End stops.

(** ** Early ends *)

Definition honest_answer (c : call) : answer c -> Prop :=
  match c return answer c -> Prop with
  | Readdir _ => fun r => match r with Some n => file_name n | None => True end
  | _ => fun _ => True
  end.

Section early.
  Variable o : options_t.
  Variable files : list str.
  Hypothesis has_sequence : o_sequence_to_use o <> None.

  Definition early (tr : list event) (w : stop) : Prop :=
    w = StopFuel \/ (w = StopExit EXIT_FAILURE /\ out_of_descriptors (rev tr)) \/
    exists base, name_met files (rev tr) base /\ cleaning_fails o base w.

  Notation wps := (wps honest_answer early).

  Lemma any_call {A} c (k : answer c -> prog A) Q tr :
    (forall r, wps (k r) Q (Ev c r :: tr)) -> wps (Call c k) Q tr.
  Proof. simpl. auto. Qed.

  Lemma file_early p dir base tr : last_component p dir base -> name_met files (rev tr) base ->
    wps (parse_file p o) (fun _ _ => True) tr.
  Proof.
    intros L N. unfold parse_file. rewrite (split_path_of p dir base L). rewrite talking_sequence, told_bind.
    apply wps_told. set (ws := map heard _).
    assert (N' : name_met files (rev (rev ws ++ tr)) base).
    { destruct N as [N|(h & N)]; [now left|]. right. exists h. rewrite rev_app_distr. apply in_or_app. now left. }
    clear N. revert N'. generalize (rev ws ++ tr). clear ws tr. intros tr N. apply wps_bind, wps_lift.
    destruct (is_protected base) eqn:Pb.
    { unfold sequence_run_filters. destruct (o_sequence_to_use o); [exact I|congruence]. }
    destruct (sequence_run_filters (o_platform o) (o_sequence_to_use o) (Some base)) as [cl|u|n] eqn:E.
    - destruct cl as [cl|]; [|exact I]. destruct (str_eqb base cl); [exact I|]. cbv zeta.
      apply wps_bind. apply any_call. intros [a|m]; [|exact I].
      apply wps_bind. apply any_call. intros r. cbn [RunProofs3.wps].
      destruct (match r with inl new => is_other_file a new | inr _ => false end).
      { apply wps_bind. apply any_call. intros []. exact I. }
      apply wps_bind. eapply wps_mono with (Q := fun _ _ => True).
      2:{ destruct (_ || _)%bool; [|exact I]. apply any_call. intros []. exact I. }
      intros _ tr' _. destruct (o_dry_run o); [exact I|]. apply wps_bind, any_call. intros [m|]; [|exact I].
      cbn [RunProofs3.wps]. apply wps_bind, any_call. intros []. exact I.
    - right. right. exists base. split; auto. unfold cleaning_fails. now rewrite E.
    - right. right. exists base. split; auto. unfold cleaning_fails. now rewrite E.
  Qed.

  Lemma entry_component p n : file_name n -> exists dir, last_component (entry_path p n) dir n.
  Proof.
    intros F. rewrite (entry_path_name p n F). destruct F as (_ & Sl & _). exists (p ++ bs "/"). unfold last_component. splits; auto.
    - now rewrite <- app_assoc.
    - right. now exists p.
  Qed.

  Lemma walk_early fuel :
    (forall p l tr, ogood l -> wps (parse_dir fuel o p l) (fun l' _ => ogood l') tr) /\
    (forall p h st l tr, ogood l -> wps (dir_loop fuel o p h st l) (fun l' _ => ogood l') tr).
  Proof.
    induction fuel as [|fuel [IHd IHl]]; [split; intros; left; reflexivity|]. split.
    - intros p l tr G. cbn [parse_dir]. apply wps_bind, any_call. intros [st|m]; [|exact G].
      cbn [RunProofs3.wps]. destruct (negb (isdir st)); [exact G|]. apply wps_bind, any_call. intros [h|em m]; cbn [RunProofs3.wps].
      + apply wps_bind. eapply wps_mono; [|apply IHl; exact G]. cbv beta. intros l' tr' G'.
        apply wps_bind, any_call. intros []. exact G'.
      + apply wps_bind, any_call. intros []. cbn [RunProofs3.wps]. destruct em; [|exact G].
        right. left. split; auto. exists (rev (Ev (Lstat p) (inl st) :: tr)), p, m. cbn [rev]. now rewrite <- !app_assoc.
    - intros p h st l tr G. cbn [dir_loop]. apply wps_bind. intros r Hr. cbn [RunProofs3.wps]. destruct r as [n|]; [|exact G].
      destruct (ignore_file_check n l G) as (b & l1 & E & G1 & _). rewrite E. cbn [lift pbind].
      destruct b; [now apply IHl|]. cbv zeta. apply wps_bind, any_call. intros r. cbn [RunProofs3.wps].
      apply wps_bind. eapply wps_mono with (Q := fun l' _ => ogood l').
      { intros l2 tr2 G2. now apply IHl. }
      assert (F : wps (parse_file (entry_path p n) o) (fun _ _ => True)
                   (Ev (Lstat (entry_path p n)) r :: Ev (Readdir h) (Some n) :: tr)).
      { destruct (entry_component p n Hr) as (dir & L). apply file_early with dir n; auto.
        right. exists h. rewrite <- in_rev. right. now left. }
      destruct (isdir _).
      + apply wps_bind. eapply wps_mono; [|exact F]. intros q tr2 _. cbv beta. destruct (o_recurse o); [now apply IHd|exact G1].
      + destruct (_ || _)%bool; [|exact G1]. apply wps_bind. eapply wps_mono; [|exact F]. intros q tr2 _. exact G1.
  Qed.

  Lemma arguments_early fuel fs : forall l tr, incl fs files -> ogood l ->
    wps (process_arguments fuel o fs l) (fun l' _ => ogood l') tr.
  Proof.
    induction fs as [|f fs IH]; intros l tr L G; cbn [process_arguments]; [exact G|].
    apply wps_bind. eapply wps_mono with (Q := fun l' _ => ogood l').
    { intros l1 tr1 G1. apply IH; auto. intros x X. apply L. now right. }
    assert (F : forall tr, wps (parse_file f o) (fun _ _ => True) tr).
    { intros tr'. destruct (split_path f) as [dir base] eqn:Sp. apply split_path_spec in Sp.
      apply file_early with dir base; auto. left. exists f, dir. split; auto. apply L. now left. }
    unfold process_argument. apply wps_bind. eapply wps_mono with (Q := fun _ _ => True).
    2:{ destruct (0 <? o_verbose o)%N; [|exact I]. apply any_call. intros []. exact I. }
    intros _ tr1 _. apply wps_bind, any_call. intros [st|m]; cbn [RunProofs3.wps].
    2:{ apply wps_bind, any_call. intros []. exact G. }
    destruct (isdir st).
    - apply wps_bind. eapply wps_mono; [|apply F]. intros q tr2 _. now apply walk_early.
    - destruct (_ || _)%bool; [|exact G]. apply wps_bind. eapply wps_mono; [|apply F]. intros q tr2 _. exact G.
  Qed.
End early.

Lemma work_early {S} (step : S -> forall c, answer c -> S -> Prop) (interference : S -> S -> Prop) fuel o files l s tr s' w :
  honest_names step -> o_sequence_to_use o <> None -> ogood l ->
  runs step interference (process_arguments fuel o files l) s tr s' (Stop w) ->
  w = StopFuel \/ (w = StopExit EXIT_FAILURE /\ out_of_descriptors tr) \/
  exists base, name_met files tr base /\ cleaning_fails o base w.
Proof.
  intros HN HS G R.
  assert (HH : forall s c r s', step s c r s' -> honest_answer c r).
  { intros s0 c r s1 St. destruct c; simpl; auto. destruct r as [n|]; auto. eapply HN; eauto. }
  pose proof (wps_sound _ _ step interference _ _ [] _ _ _ _ HH (arguments_early o files HS fuel files l [] (incl_refl _) G) R) as W.
  cbn [wps] in W. unfold early in W. rewrite app_nil_r, rev_involutive in W. exact W.
Qed.

(** ** The bound on nesting *)

(** The same programs as far as [n] calls show. *)
Inductive agree {A} : nat -> prog A -> prog A -> Prop :=
| agree_0 p q : agree 0 p q
| agree_ret n a : agree n (Ret a) (Ret a)
| agree_stop n w : agree n (Stop w) (Stop w)
| agree_call n c k k' : (forall r, agree n (k r) (k' r)) -> agree (S n) (Call c k) (Call c k').

Lemma agree_refl {A} n (p : prog A) : agree n p p.
Proof. revert p. induction n; [constructor|]. intros [a|w|c k]; constructor; auto. Qed.

Lemma agree_less {A} m n (p q : prog A) : m <= n -> agree n p q -> agree m p q.
Proof.
  intros L AG. revert m L. induction AG as [p q|n a|n w|n c k k' _ IH]; intros m L; try constructor.
  - replace m with 0 by lia. constructor.
  - destruct m; constructor. intros r. apply IH. lia.
Qed.

Lemma agree_bind {A B} n (p q : prog A) (f g : A -> prog B) :
  agree n p q -> (forall a, agree n (f a) (g a)) -> agree n (pbind p f) (pbind q g).
Proof.
  intros AG. induction AG as [p q|n a|n w|n c k k' _ IH]; intros F; cbn [pbind]; try constructor; auto.
  intros r. apply IH. intros a. eapply agree_less; [|apply F]. lia.
Qed.

Lemma agree_then {A B} n (p : prog A) (f g : A -> prog B) :
  (forall a, agree n (f a) (g a)) -> agree n (pbind p f) (pbind p g).
Proof. intros F. apply agree_bind; auto. apply agree_refl. Qed.

Lemma agree_sys {B} n c (f g : answer c -> prog B) :
  (forall a, agree n (f a) (g a)) -> agree (S n) (pbind (sys c) f) (pbind (sys c) g).
Proof. intros F. cbn [sys pbind]. now constructor. Qed.

Lemma agree_trace {A} n (p q : prog A) tr p' : agree n p q -> length tr < n -> trace_of p tr p' ->
  exists q', trace_of q tr q' /\ head q' = head p'.
Proof.
  unfold trace_of. intros AG. revert tr. induction AG as [p q|n a|n w|n c k k' _ IH]; intros tr L T.
  - lia.
  - exists p'. auto.
  - exists p'. auto.
  - simpl in T. destruct T as [(-> & _ & ->)|(s0 & r & [] & t & _ & _ & -> & T)].
    + exists (Call c k'). split; [apply runs_here|reflexivity].
    + destruct (IH r t) as (q' & T' & E); [simpl in L; lia|exact T|]. exists q'. split; auto.
      eapply runs_call; try exact T'; [reflexivity | exact I].
Qed.

Lemma walk_agree o n :
  (forall f1 f2 p l, n <= f1 -> n <= f2 -> agree n (parse_dir f1 o p l) (parse_dir f2 o p l)) /\
  (forall f1 f2 p h st l, n <= f1 -> n <= f2 -> agree n (dir_loop f1 o p h st l) (dir_loop f2 o p h st l)).
Proof.
  induction n as [|n [IHd IHl]]; [split; intros; constructor|]. split.
  - intros [|f1] [|f2] p l L1 L2; try lia. cbn [parse_dir]. apply agree_sys. intros [st|m]; [|constructor].
    destruct (negb (isdir st)); [constructor|]. apply agree_then. intros [h|em m]; [|apply agree_refl].
    apply agree_bind; [apply IHl; lia|]. intros l'. apply agree_refl.
  - intros [|f1] [|f2] p h st l L1 L2; try lia. cbn [dir_loop]. apply agree_sys. intros [m|]; [|constructor].
    apply agree_then. intros [[|] l1]; [apply IHl; lia|]. cbv zeta. apply agree_then. intros r.
    apply agree_bind; [|intros l2; apply IHl; lia].
    destruct (isdir _); [|apply agree_refl]. apply agree_then. intros q. destruct (o_recurse o); [|constructor]. apply IHd; lia.
Qed.

Lemma arguments_agree o n f1 f2 fs : n <= f1 -> n <= f2 -> forall l,
  agree n (process_arguments f1 o fs l) (process_arguments f2 o fs l).
Proof.
  intros L1 L2. induction fs as [|f fs IH]; intros l; cbn [process_arguments]; [constructor|].
  apply agree_bind; [|exact IH]. unfold process_argument. apply agree_then. intros _. apply agree_then. intros [st|m]; [|apply agree_refl].
  destruct (isdir st); [|apply agree_refl]. apply agree_then. intros q. now apply walk_agree.
Qed.

Lemma main_agree n f1 f2 sy argv : n <= f1 -> n <= f2 -> agree n (main f1 sy argv) (main f2 sy argv).
Proof.
  intros L1 L2. unfold main. cbv zeta. apply agree_then. intros o. apply agree_then. intros c. apply agree_then. intros ign.
  destruct (o_list_sequences o); [apply agree_refl|]. destruct (sequence_choose_default _ _); [|apply agree_refl].
  apply agree_then. intros s1. apply agree_then. intros files. destruct (negb _); [|apply agree_refl].
  apply agree_bind; [|intros; constructor]. now apply arguments_agree.
Qed.

(** Running out of fuel takes as many calls as there is fuel. *)
Section fuel.
  Variable o : options_t.
  Variable n : nat.

  Definition late (tr : list event) (w : stop) : Prop := w = StopFuel -> n <= length tr.
  Notation wps := (wps (fun _ _ => True) late).

  Definition longer {A} (tr : list event) (_ : A) (tr' : list event) : Prop := length tr <= length tr'.

  Lemma any_step {A} c (k : answer c -> prog A) Q tr : (forall r, wps (k r) Q (Ev c r :: tr)) -> wps (Call c k) Q tr.
  Proof. simpl. auto. Qed.

  Lemma lift_late {A} (r : res A) tr : wps (lift r) (longer tr) tr.
  Proof. destruct r; simpl; unfold longer, late; try discriminate; auto. Qed.

  Lemma talking_late {A} (m : talk A) tr : wps (talking m) (longer tr) tr.
  Proof.
    unfold talking. apply wps_told. eapply wps_mono; [|apply lift_late]. cbv beta. intros a tr' L.
    unfold longer in *. rewrite app_length in L. lia.
  Qed.

  Lemma file_late p tr : wps (parse_file p o) (longer tr) tr.
  Proof.
    unfold parse_file. destruct (split_path p) as [dir base]. apply wps_bind. eapply wps_mono; [|apply talking_late]. cbv beta.
    intros [cl|] tr1 L1; [|exact L1]. destruct (str_eqb base cl); [exact L1|]. cbv zeta. unfold longer in *.
    apply wps_bind, any_step. intros [a|m]; cbn [RunProofs3.wps]; [|cbn [length]; lia].
    apply wps_bind, any_step. intros r. cbn [RunProofs3.wps].
    destruct (match r with inl new => is_other_file a new | inr _ => false end).
    { apply wps_bind, any_step. intros []. cbn [RunProofs3.wps length]. lia. }
    apply wps_bind. eapply wps_mono with (Q := fun _ tr' => length tr <= length tr').
    2:{ destruct (_ || _)%bool; [apply any_step; intros []|]; cbn [RunProofs3.wps length]; lia. }
    intros _ tr2 L2. destruct (o_dry_run o); [exact L2|]. apply wps_bind, any_step. intros [m|]; cbn [RunProofs3.wps].
    - apply wps_bind, any_step. intros []. cbn [RunProofs3.wps length]. lia.
    - cbn [length]. lia.
  Qed.

  Lemma walk_late fuel :
    (forall p l tr, n <= fuel + length tr -> wps (parse_dir fuel o p l) (longer tr) tr) /\
    (forall p h st l tr, n <= fuel + length tr -> wps (dir_loop fuel o p h st l) (longer tr) tr).
  Proof.
    unfold longer. induction fuel as [|fuel [IHd IHl]]; [split; intros; simpl; intros _; simpl in *; lia|]. split.
    - intros p l tr L. cbn [parse_dir]. apply wps_bind, any_step. intros [st|m]; cbn [RunProofs3.wps]; [|cbn [length]; lia].
      destruct (negb (isdir st)); [cbn [RunProofs3.wps length]; lia|]. apply wps_bind, any_step. intros [h|em m]; cbn [RunProofs3.wps].
      + apply wps_bind. eapply wps_mono; [|apply IHl; cbn [length]; lia]. cbv beta. intros l' tr' L'. cbn [length] in L'.
        apply wps_bind, any_step. intros []. cbn [RunProofs3.wps length]. lia.
      + apply wps_bind, any_step. intros []. destruct em; cbn [RunProofs3.wps length]; [unfold late; discriminate|lia].
    - intros p h st l tr L. cbn [dir_loop]. apply wps_bind, any_step. intros [m|]; cbn [RunProofs3.wps]; [|cbn [length]; lia].
      apply wps_bind. eapply wps_mono; [|apply lift_late]. cbv beta. intros [[|] l1] tr1 L1; unfold longer in L1; cbn [length] in L1.
      { eapply wps_mono; [|apply IHl; lia]. cbv beta. intros; lia. }
      cbv zeta. apply wps_bind, any_step. intros r. cbn [RunProofs3.wps]. apply wps_bind.
      eapply wps_mono with (Q := fun _ tr' => S (length tr) <= length tr').
      { intros l2 tr2 L2. eapply wps_mono; [|apply IHl; lia]. cbv beta. intros; lia. }
      destruct (isdir _).
      + apply wps_bind. eapply wps_mono; [|apply file_late]. cbv beta. unfold longer. intros q tr2 L2. cbn [length] in L2.
        destruct (o_recurse o); [|cbn [RunProofs3.wps]; lia]. eapply wps_mono; [|apply IHd; lia]. cbv beta. intros; lia.
      + destruct (_ || _)%bool; [|cbn [RunProofs3.wps length]; lia].
        apply wps_bind. eapply wps_mono; [|apply file_late]. cbv beta. unfold longer. intros q tr2 L2. cbn [length] in L2. cbn [RunProofs3.wps]. lia.
  Qed.

  Lemma arguments_late fuel fs : n <= fuel -> forall l tr, wps (process_arguments fuel o fs l) (longer tr) tr.
  Proof.
    intros N. unfold longer. induction fs as [|f fs IH]; intros l tr; cbn [process_arguments]; [cbn [RunProofs3.wps]; lia|].
    apply wps_bind. eapply wps_mono with (Q := fun _ tr' => length tr <= length tr').
    { intros l1 tr1 L1. eapply wps_mono; [|apply IH]. cbv beta. intros; lia. }
    unfold process_argument. apply wps_bind. eapply wps_mono with (Q := fun _ tr' => length tr <= length tr').
    2:{ destruct (0 <? o_verbose o)%N; [apply any_step; intros []|]; cbn [RunProofs3.wps length]; lia. }
    intros _ tr1 L1. apply wps_bind, any_step. intros [st|m]; cbn [RunProofs3.wps].
    2:{ apply wps_bind, any_step. intros []. cbn [RunProofs3.wps length]. lia. }
    destruct (isdir st).
    - apply wps_bind. eapply wps_mono; [|apply file_late]. cbv beta. unfold longer. intros q tr2 L2. cbn [length] in L2.
      eapply wps_mono; [|apply walk_late; lia]. cbv beta. unfold longer. intros; lia.
    - destruct (_ || _)%bool; [|cbn [RunProofs3.wps length]; lia]. apply wps_bind. eapply wps_mono; [|apply file_late].
      cbv beta. unfold longer. intros q tr2 L2. cbn [length] in L2. cbn [RunProofs3.wps]. lia.
  Qed.
End fuel.

Lemma work_fuel fuel o files l tr : trace_of (process_arguments fuel o files l) tr (Stop StopFuel) -> fuel <= length tr.
Proof.
  intros T. pose proof (wps_sound (fun _ _ => True) (late fuel) anything alone _ _ [] _ _ _ _ (fun _ _ _ _ _ => I)
    (arguments_late o fuel fuel files (le_n _) l []) T) as W.
  cbn [wps] in W. rewrite app_nil_r in W. unfold late in W. rewrite rev_length in W. auto.
Qed.

(** ** Nothing is left out *)

Lemma split_app {A} (a : list A) x b t1 t2 : a ++ x :: b = t1 ++ t2 ->
  (exists b', t1 = a ++ x :: b' /\ b = b' ++ t2) \/ (exists a', t2 = a' ++ x :: b /\ a = t1 ++ a').
Proof.
  revert t1. induction a as [|y a IH]; intros t1 E; destruct t1 as [|z t1]; cbn [app] in E.
  - right. exists []. auto.
  - injection E as -> ->. left. exists t1. auto.
  - right. exists (y :: a). auto.
  - injection E as -> E. destruct (IH t1 E) as [(b' & -> & ->)|(a' & -> & ->)].
    + left. exists b'. auto.
    + right. exists a'. auto.
Qed.

Definition not_dir_call (e : event) : Prop := match e with Ev c _ => elsewhere c end.

Lemma file_done_elsewhere o p tr q : file_done o p tr q -> Forall not_dir_call tr.
Proof.
  assert (A : forall new, Forall not_dir_call (announcement_of o p new)).
  { intros new. unfold announcement_of. destruct (0 <? o_verbose o)%N; repeat constructor. }
  intros [ws tr' q' C F]. apply Forall_app. split.
  - destruct C as [|dir base _ _ _]; [constructor|]. induction (remarks o base) as [|[out text] l IH]; [constructor|].
    constructor; [exact Logic.I|exact IH].
  - destruct F; repeat constructor; apply Forall_app; split; auto; repeat constructor.
Qed.

Lemma elsewhere_open tr stack : Forall not_dir_call tr -> still_open tr stack = stack.
Proof.
  induction 1 as [|[c r] tr H _ IH]; [reflexivity|]. destruct c; cbn in H; try contradiction; exact IH.
Qed.

Lemma scanning_elsewhere o f : Forall not_dir_call (scanning o f).
Proof. unfold scanning. destruct (0 <? o_verbose o)%N; repeat constructor. Qed.

Lemma walk_balanced o names :
  (forall k p tr k', directory_done o names k p tr k' -> forall stack, still_open tr stack = stack) /\
  (forall p h st k tr k', entries_done o names p h st k tr k' -> forall stack, still_open tr stack = stack) /\
  (forall k p st tr k', entry_done o names k p st tr k' -> forall stack, still_open tr stack = stack).
Proof.
  apply (walk_done_ind o names
    (fun k p tr k' _ => forall stack, still_open tr stack = stack)
    (fun p h st k tr k' _ => forall stack, still_open tr stack = stack)
    (fun k p st tr k' _ => forall stack, still_open tr stack = stack)); intros; cbn [still_open]; auto.
  - rewrite still_open_app, H. reflexivity.
  - rewrite still_open_app, H, H0. reflexivity.
  - apply elsewhere_open. eapply file_done_elsewhere; eauto.
  - apply elsewhere_open. eapply file_done_elsewhere; eauto.
  - rewrite still_open_app, H. apply elsewhere_open. eapply file_done_elsewhere; eauto.
Qed.

Definition serves (o : options_t) (names : list str) (tr : list event) : Prop :=
  forall stack a h n b, tr = a ++ Ev (Readdir h) (Some n) :: b -> ~ hidden n -> ~ In n names ->
    exists top outer, still_open a stack = (top, h) :: outer /\ entry_served o names top n b.

Lemma served_more o names top n b more : entry_served o names top n b -> entry_served o names top n (b ++ more).
Proof.
  intros (r & m & -> & H). exists r, (m ++ more). split; [reflexivity|]. intros st Er K.
  destruct (H st Er K) as (now & later & q & -> & F & D). exists now, (later ++ more), q. rewrite app_assoc. splits; auto.
  intros KD Re. destruct (D KD Re) as (deep & after & k & k' & -> & DD). exists deep, (after ++ more), k, k'. rewrite app_assoc. auto.
Qed.

Lemma serves_app o names t1 t2 : (forall stack, still_open t1 stack = stack) -> serves o names t1 -> serves o names t2 -> serves o names (t1 ++ t2).
Proof.
  intros B S1 S2 stack a h n b E Hn Nn. symmetry in E. apply split_app in E. destruct E as [(b' & -> & ->)|(a' & -> & ->)].
  - destruct (S1 stack a h n b' eq_refl Hn Nn) as (top & outer & E & Sv). exists top, outer. split; auto. now apply served_more.
  - rewrite still_open_app, B. apply S2; auto.
Qed.

Lemma serves_elsewhere o names tr : Forall not_dir_call tr -> serves o names tr.
Proof.
  intros F stack a h n b -> _ _. apply Forall_app in F. destruct F as [_ F]. inversion F as [|x y X _]. elim X.
Qed.

Lemma serves_cons o names c r tr : elsewhere c -> serves o names tr -> serves o names (Ev c r :: tr).
Proof.
  intros E S1. change (Ev c r :: tr) with ([Ev c r] ++ tr). apply serves_app; auto.
  - intros stack. apply elsewhere_open. repeat constructor. exact E.
  - apply serves_elsewhere. repeat constructor. exact E.
Qed.

Lemma check_not_listed names k n k1 : check names k n true k1 -> hidden n \/ In n names.
Proof. inversion 1; auto. right. eapply nth_error_In; eauto. Qed.

Lemma readdir_inj h (r : option str) h' (r' : option str) a b : Ev (Readdir h) r :: a = Ev (Readdir h') r' :: b -> h = h' /\ r = r' /\ a = b.
Proof.
  intros E. pose proof (f_equal (fun l => match l with Ev (Readdir h) r :: _ => Some (h, r : option str) | _ => None end) E) as X.
  injection X as X Y. apply (f_equal (@tl _)) in E. cbn in E. auto.
Qed.

(** Inside the directory [p] opened with handle [h]. *)
Definition serves_in (o : options_t) (names : list str) (p : str) (h : N) (tr : list event) : Prop :=
  forall outer a h' n b, tr = a ++ Ev (Readdir h') (Some n) :: b -> ~ hidden n -> ~ In n names ->
    exists top outer', still_open a ((p, h) :: outer) = (top, h') :: outer' /\ entry_served o names top n b.

Lemma serves_serves_in o names p h tr : serves o names tr -> serves_in o names p h tr.
Proof. intros H outer a h' n b E Hn Nn. exact (H _ a h' n b E Hn Nn). Qed.

Lemma walk_serves o names :
  (forall k p tr k', directory_done o names k p tr k' -> serves o names tr) /\
  (forall p h st k tr k', entries_done o names p h st k tr k' -> serves_in o names p h tr) /\
  (forall k p st tr k', entry_done o names k p st tr k' -> serves o names tr).
Proof.
  destruct (walk_balanced o names) as (Bd & Bl & Be).
  apply (walk_done_ind o names
    (fun k p tr k' _ => serves o names tr)
    (fun p h st k tr k' _ => serves_in o names p h tr)
    (fun k p st tr k' _ => serves o names tr)).
  - intros. apply serves_elsewhere. repeat constructor.
  - intros. apply serves_elsewhere. repeat constructor.
  - intros k p st m D. apply serves_cons; [exact I|]. intros stack [|e a] h n b E; [discriminate|].
    injection E as _ E. destruct a as [|e2 a]; [discriminate|]. injection E as _ E. destruct a; discriminate.
  - intros k p st h tr k' D E IH. apply serves_cons; [exact I|].
    intros stack [|e a] h' n b Eq Hn Nn; [discriminate|]. injection Eq as <- Eq. cbn [still_open].
    symmetry in Eq. apply split_app in Eq. destruct Eq as [(b' & -> & ->)|(a' & Eq & ->)].
    + destruct (IH stack a h' n b' eq_refl Hn Nn) as (top & outer & E1 & Sv). exists top, outer. split; auto. now apply served_more.
    + apply (f_equal (map (fun e => match e with Ev c _ => c end))) in Eq. rewrite map_app in Eq.
      destruct a' as [|x a']; [discriminate|]. injection Eq as _ Eq. destruct a'; discriminate.
  - intros p h st k outer [|e a] h' n b E; [apply readdir_inj in E; destruct E as (_ & E & _); discriminate|].
    injection E as _ E. destruct a; discriminate.
  - intros p h st k n k1 tr k' C _ IH outer [|e a] h' n' b E Hn Nn.
    + apply readdir_inj in E. destruct E as (_ & E & _). injection E as <-. destruct (check_not_listed _ _ _ _ C); contradiction.
    + injection E as <- E. cbn [still_open]. apply (IH outer a h' n' b E Hn Nn).
  - intros p h st k n k1 r t1 k2 t2 k' C E1 IH1 E2 IH2 outer [|e a] h' n' b E Hn Nn.
    + apply readdir_inj in E. destruct E as (<- & E & <-). injection E as <-. cbn [still_open]. exists p, outer. split; auto. exists r, (t1 ++ t2). split; auto.
      intros st' -> K. cbn [latest_stat] in E1. inversion E1; subst; clear E1.
      * exists t1, t2, q. splits; auto. intros KD. destruct H as [H|[H _]]; congruence.
      * specialize (K H). congruence.
      * exists t1, t2, q. splits; auto. congruence.
      * exists t0, (t3 ++ t2), q. rewrite app_assoc. splits; auto. intros _ _. exists t3, t2, k1, k2. auto.
    + injection E as <- E. cbn [still_open]. destruct a as [|e2 a]; [discriminate|]. injection E as <- E. cbn [still_open].
      symmetry in E. apply split_app in E. destruct E as [(b' & -> & ->)|(a' & -> & ->)].
      * destruct (IH1 ((p, h) :: outer) a h' n' b' eq_refl Hn Nn) as (top & outer' & X & Sv). exists top, outer'. split; auto. now apply served_more.
      * rewrite still_open_app, (Be _ _ _ _ _ E1). apply IH2; auto.
  - intros. apply serves_elsewhere. eapply file_done_elsewhere; eauto.
  - intros k p st D Sp stack [|? ?] h n b; discriminate.
  - intros. apply serves_elsewhere. eapply file_done_elsewhere; eauto.
  - intros k p st t1 q t2 k' D Re F Dd IH. pose proof (file_done_elsewhere _ _ _ _ F) as FE. apply serves_app; auto.
    + intros. now apply elsewhere_open.
    + now apply serves_elsewhere.
Qed.

Lemma argument_serves o names k f tr k' : argument_done o names k f tr k' ->
  (forall stack, still_open tr stack = stack) /\ serves o names tr.
Proof.
  intros A. pose proof (scanning_elsewhere o f) as Sc. destruct (walk_balanced o names) as (Bd & _ & _).
  assert (G : forall t, (forall stack, still_open t stack = stack) -> serves o names t ->
    (forall stack, still_open (scanning o f ++ t) stack = stack) /\ serves o names (scanning o f ++ t)).
  { intros t B1 S1. split.
    - intros stack. rewrite still_open_app, (elsewhere_open _ _ Sc). apply B1.
    - apply serves_app; auto; [intros; now apply elsewhere_open | now apply serves_elsewhere]. }
  assert (E : forall t, Forall not_dir_call t -> (forall stack, still_open t stack = stack) /\ serves o names t).
  { intros t F. split; [intros; now apply elsewhere_open | now apply serves_elsewhere]. }
  destruct A as [m|st tr q D F|st D Sp|st t1 q t2 k' D F Dd].
  - apply G; apply E; repeat constructor.
  - apply G; apply E; constructor; try exact I; eapply file_done_elsewhere; eauto.
  - apply G; apply E; repeat constructor.
  - pose proof (file_done_elsewhere _ _ _ _ F) as FE. apply G.
    + intros stack. cbn [still_open]. rewrite still_open_app, (elsewhere_open _ _ FE). exact (Bd _ _ _ _ Dd stack).
    + apply serves_cons; [exact I|]. apply serves_app; [intros; now apply elsewhere_open | now apply serves_elsewhere | exact (proj1 (walk_serves o names) _ _ _ _ Dd)].
Qed.

Lemma arguments_serve o names k fs tr k' : arguments_done o names k fs tr k' -> serves o names tr.
Proof.
  induction 1 as [k|k f fs t1 k1 t2 k2 A _ IH].
  - intros stack [|? ?] h n b; discriminate.
  - destruct (argument_serves _ _ _ _ _ _ A). now apply serves_app.
Qed.

(** ** Whole programs *)

Lemma started_sequence s argv ws fs o c : started s argv ws fs o c -> o_sequence_to_use o <> None.
Proof. intros St. destruct (st_sequence _ _ _ _ _ _ St) as (name & s0 & s1 & _ & _ & _ & E). congruence. Qed.

Lemma started_state s argv ws fs o c : started s argv ws fs o c ->
  state_of (ignored c) 0 (o_files_to_ignore o).
Proof. intros St. destruct (st_ignore _ _ _ _ _ _ St) as (U & C & It). split; [now apply usable_good|auto]. Qed.

Lemma program_runs s argv :
  (forall fuel tr n, ~ trace_of (main fuel s argv) tr (Ret n)) \/
  (exists ws fs o c said, started s argv ws fs o c /\
     prelude s ws c said /\
     (o_is_inline_mode o = false -> forall tr n,
       (exists fuel, trace_of (main fuel s argv) tr (Ret n)) <->
       n = EXIT_SUCCESS /\ exists tr2 k, tr = map heard said ++ tr2 /\ arguments_done o (ignored c) 0 fs tr2 k)).
Proof.
  destruct (main_cases_all s argv) as [(w & E)|(ws & fs & o & c & said & St & Cf & E)].
  { left. intros fuel tr n T. elim (ends_ret _ _ _ _ (E fuel) T). }
  right. exists ws, fs, o, c, said. splits; auto. intros Im tr n.
  pose proof (started_state _ _ _ _ _ _ St) as SO. 
  assert (W : forall fuel t2, trace_of (work fuel o fs (o_files_to_ignore o)) t2 (Ret n) <->
     n = EXIT_SUCCESS /\ exists l, trace_of (process_arguments fuel o fs (o_files_to_ignore o)) t2 (Ret l)).
  { intros fuel t2. unfold work. rewrite Im. cbn [negb]. rewrite done_bind. split.
    - intros (t1 & t3 & l & -> & T1 & T2). apply done_ret in T2. destruct T2 as [-> ->]. rewrite app_nil_r. eauto.
    - intros (-> & l & T). exists t2, [], l. rewrite app_nil_r. splits; auto. now apply done_ret. }
  split.
  - intros (fuel & T). rewrite E in T. apply done_told in T. destruct T as (t2 & -> & T). apply W in T. destruct T as (-> & l & T).
    split; auto. destruct (arguments_forward _ _ _ _ _ _ _ _ SO T) as (k & _ & A). eauto.
  - intros (-> & t2 & k & -> & A). destruct (arguments_backward _ _ _ _ _ _ (started_sequence _ _ _ _ _ _ St) A) as (m & H).
    destruct (H m _ (le_n _) SO) as (l & _ & T). exists m. rewrite E. apply done_told. exists t2. split; auto. apply W. eauto.
Qed.

Lemma program_done fuel s argv tr n : trace_of (main fuel s argv) tr (Ret n) ->
  exists ws fs o c said, started s argv ws fs o c /\
    (o_is_inline_mode o = false ->
     exists tr2 k, tr = map heard said ++ tr2 /\ arguments_done o (ignored c) 0 fs tr2 k).
Proof.
  intros T. destruct (program_runs s argv) as [N|(ws & fs & o & c & said & St & _ & H)]; [elim (N _ _ _ T)|].
  exists ws, fs, o, c, said. split; auto. intros Im. apply (H Im tr n). eauto.
Qed.

Lemma program_serves fuel s argv tr n a h name b :
  trace_of (main fuel s argv) tr (Ret n) -> tr = a ++ Ev (Readdir h) (Some name) :: b -> ~ hidden name ->
  exists ws fs o c, started s argv ws fs o c /\
    (~ In name (ignored c) ->
     exists top outer, still_open a [] = (top, h) :: outer /\
       entry_served o (ignored c) top name b).
Proof.
  intros T E Hn. destruct (program_done _ _ _ _ _ T) as (ws & fs & o & c & said & St & H). exists ws, fs, o, c. split; auto. intros Nn.
  destruct (o_is_inline_mode o) eqn:Im.
  - exfalso. apply runs_work in T. destruct T as [(F & _)|(ws' & fs' & o' & c' & said' & tr2 & s1 & St' & E' & _ & R)].
    + subst tr. apply Forall_app in F. destruct F as [_ F]. inversion F as [|x y X _]. elim X.
    + assert (Im' : o_is_inline_mode o' = true).
      { destruct (OptionsProofs.asks_unique _ _ _ _ _ _ (st_asks _ _ _ _ _ _ St) (st_asks _ _ _ _ _ _ St')) as [-> ->].
        apply (st_inline _ _ _ _ _ _ St'). now apply (st_inline _ _ _ _ _ _ St). }
      apply runs_trace in R. destruct (only_trace _ _ _ _ (work_inline fuel o' fs' (o_files_to_ignore o') Im') R) as [F2 _].
      pose proof (heard_prints said') as F.
      assert (In (Ev (Readdir h) (Some name)) (map heard said' ++ tr2)) as X by (rewrite <- E', E; apply in_elt).
      apply in_app_or in X. rewrite Forall_forall in F, F2. destruct X as [X|X]; [elim (F _ X) | elim (F2 _ X)].
  - destruct (H eq_refl) as (tr2 & k & E2 & A). apply arguments_serve in A.
    rewrite E in E2.
    assert (S2 : serves o (ignored c) (map heard said ++ tr2)).
    { apply serves_app; auto.
      - intros stack. clear. induction said as [|[out t] l IH]; [reflexivity|exact IH].
      - apply serves_elsewhere. apply Forall_map, Forall_forall. intros x _. exact Logic.I. }
    apply (S2 [] a h name b); auto.
Qed.

Lemma program_early {S} (step : S -> forall c, answer c -> S -> Prop) (interference : S -> S -> Prop) fuel sy argv s tr s' w :
  honest_names step -> runs step interference (main fuel sy argv) s tr s' (Stop w) ->
  Exists (fun e => match e with Ev c _ => ~ is_print c end) tr ->
  exists ws fs o c, started sy argv ws fs o c /\
    (o_is_inline_mode o = false ->
     w = StopFuel \/ (w = StopExit EXIT_FAILURE /\ out_of_descriptors tr) \/
     exists base, name_met fs tr base /\ cleaning_fails o base w).
Proof.
  intros HN R X. apply runs_work in R.
  destruct R as [(F & _)|(ws & fs & o & c & said & tr2 & s1 & St & -> & _ & R)].
  { exfalso. apply Exists_exists in X. destruct X as (e & Ie & He). rewrite Forall_forall in F. specialize (F e Ie). destruct e. contradiction. }
  exists ws, fs, o, c. split; auto. intros Im.
  destruct (work_files _ _ _ _ _ _ _ _ _ _ Im R) as (q & Rq & [(_ & Y)|Y]); [discriminate|].
  destruct q as [a|w'|c1 k1]; try discriminate. cbn [pbind] in Y. injection Y as <-.
  destruct (started_state _ _ _ _ _ _ St) as (G & _).
  destruct (work_early _ _ _ _ _ _ _ _ _ _ HN (started_sequence _ _ _ _ _ _ St) G Rq) as [H|[(H1 & before & p & m & ->)|(base & M & C)]]; auto.
  - right. left. split; auto. exists (map heard said ++ before), p, m. now rewrite <- app_assoc.
  - right. right. exists base. split; auto. destruct M as [M|(h & M)]; [now left|right]. exists h. apply in_or_app. now right.
Qed.

Lemma out_of_the_box {S} (step : S -> forall c, answer c -> S -> Prop) (interference : S -> S -> Prop) fuel sy argv s tr s' w :
  honest_names step -> runs step interference (main fuel sy argv) s tr s' (Stop w) ->
  Exists (fun e => match e with Ev c _ => ~ is_print c end) tr ->
  config_paths (m_env sy) = [] ->
  (forall ws fs, asks (posix_env sy) (tl argv) ws fs ->
     last_of config_named ws None /\ ~ In Inline_mode ws /\ ~ (exists a r, argv = a :: r /\ called a (bs "inline-detox")) /\
     (exists name, In name [None; Some (bs "default"); Some (bs "iso8859_1"); Some (bs "iso8859_1-legacy"); Some (bs "utf_8");
                            Some (bs "uncgi"); Some (bs "lower")] /\ wanted_sequence sy ws name /\
       (name = Some (bs "lower") -> p_ctype (m_platform sy) = c_locale) /\
       (name = Some (bs "utf_8") -> forall base u, name_met fs tr base -> infix u base -> ~ overlong_nul u)) /\
     Forall (fun f => nonul f /\ (strlen f < 2 ^ 50)%N) fs) ->
  w = StopFuel \/ (w = StopExit EXIT_FAILURE /\ out_of_descriptors tr).
Proof.
  intros HN R X CP H. destruct (program_early _ _ _ _ _ _ _ _ _ HN R X) as (ws & fs & o & c & St & D).
  pose proof (st_asks _ _ _ _ _ _ St) as A. destruct (H ws fs A) as (F' & NI & NB & (name' & In' & W' & Lo & Ut) & Fs).
  destruct D as [D|[D|(base & M & C)]]; auto.
  { destruct (o_is_inline_mode o) eqn:Im; auto. apply (st_inline _ _ _ _ _ _ St) in Im. tauto. }
  exfalso.
  destruct (st_config _ _ _ _ _ _ St) as (file & printed & F & Cf).
  destruct (st_sequence _ _ _ _ _ _ St) as (name & s0 & s1 & W & Ch & Rv & Os).
  assert (file = None) as -> by (eapply last_of_unique; eauto).
  assert (name' = name) as ->.
  { destruct W as (n & W1 & ->). destruct W' as (n' & W1' & ->). now rewrite (last_of_unique _ _ _ _ W1' W1). }
  rewrite config_file_load_spec, CP in Cf. cbn [read_all] in Cf. apply (f_equal snd) in Cf. change (Ok spoof_config_file = Ok c) in Cf. injection Cf as <-.
  assert (B : nonul base /\ small base).
  { destruct M as [(f & dir & If & L)|(h & Ih)].
    - rewrite Forall_forall in Fs. destruct (Fs f If) as [N1 N2]. destruct L as (-> & _ & _). apply nonul_app in N1. split; [tauto|].
      unfold small. unfold strlen in *. rewrite app_length in N2. eapply N.le_lt_trans; [|exact N2]. lia.
    - apply in_split in Ih. destruct Ih as (t1 & t2 & ->). apply runs_split in R. destruct R as (a1 & a2 & a3 & a4 & _ & _ & Sp & _).
      apply HN in Sp. destruct Sp as (_ & _ & N1 & N2). split; auto. unfold small, strlen. eapply N.le_lt_trans with 255%N; [lia|reflexivity]. }
  assert (Sh : exists n, In n [bs "default"; bs "iso8859_1"; bs "iso8859_1-legacy"; bs "utf_8"; bs "uncgi"; bs "lower"] /\
     (n = bs "lower" -> name = Some (bs "lower")) /\ (n = bs "utf_8" -> name = Some (bs "utf_8")) /\ shipped n s1).
  { assert (Dn : forall n, sequence_choose_default (cf_sequences spoof_config_file) (Some n) = Some s0 -> shipped n s1).
    { intros n Y. destruct Rv as (find & _ & Rv). exists (e_datadir (m_env sy)), find, s0. auto. }
    destruct In' as [<-|[<-|[<-|[<-|[<-|[<-|[<-|[]]]]]]]].
    - exists (bs "default"). splits; [simpl; tauto|discriminate|discriminate|]. apply Dn.
      rewrite choose_default in Ch. destruct (sequence_choose_default _ (Some (bs "default"))) eqn:Y; [exact Ch|].
      vm_compute in Y. discriminate.
    - exists (bs "default"). splits; [simpl; tauto|discriminate|discriminate|auto].
    - exists (bs "iso8859_1"). splits; [simpl; tauto|discriminate|discriminate|auto].
    - exists (bs "iso8859_1-legacy"). splits; [simpl; tauto|discriminate|discriminate|auto].
    - exists (bs "utf_8"). splits; [simpl; tauto|discriminate|auto|auto].
    - exists (bs "uncgi"). splits; [simpl; tauto|discriminate|discriminate|auto].
    - exists (bs "lower"). splits; [simpl; tauto|auto|discriminate|auto]. }
  destruct Sh as (n & In2 & L2 & U2 & Sh).
  destruct (shipped_total (o_platform o) n s1 base In2) as (out & Q).
  { intros E. rewrite (st_platform _ _ _ _ _ _ St). auto. }
  { exact Sh. } { tauto. } { tauto. }
  { intros E u Iu. eapply Ut; eauto. }
  unfold cleaning_fails in C. rewrite Os, Q in C. exact C.
Qed.

Lemma program_asks fuel s argv tr p' : trace_of (main fuel s argv) tr p' ->
  Exists (fun e => match e with Ev c _ => ~ is_print c end) tr ->
  exists ws fs o c said, started s argv ws fs o c /\
    prelude s ws c said /\
    (o_is_inline_mode o = false ->
     exists tr2, tr = map heard said ++ tr2 /\ Forall (fun e => match e with Ev c _ => asked o fs c end) tr2 /\
       forall c k, p' = Call c k -> asked o fs c).
Proof.
  intros T X. destruct (main_cases_all s argv) as [(w & E)|(ws & fs & o & c & said & St & Cf & E)].
  { exfalso. destruct (only_trace _ _ _ _ (ends_only _ _ (E fuel)) T) as [F _]. apply Exists_exists in X.
    destruct X as (e & Ie & He). rewrite Forall_forall in F. specialize (F e Ie). destruct e. contradiction. }
  exists ws, fs, o, c, said. splits; auto. intros Im. rewrite E in T.
  assert (Y : exists tr2, tr = map heard said ++ tr2 /\ trace_of (work fuel o fs (o_files_to_ignore o)) tr2 p').
  { apply runs_told in T. destruct T as [(l1 & l2 & -> & _ & -> & _)|(tr2 & [] & -> & _ & T)]; [|eauto].
    exfalso. pose proof (heard_prints l1) as F. apply Exists_exists in X. destruct X as (e & Ie & He).
    rewrite Forall_forall in F. specialize (F e Ie). destruct e. contradiction. }
  destruct Y as (tr2 & -> & T2). exists tr2. split; auto.
  destruct (work_files _ _ _ _ _ _ _ _ _ _ Im T2) as (q & Rq & Z). destruct (work_asks _ _ _ _ _ _ Rq) as [F O]. split; auto.
  intros c1 k1 ->. destruct Z as [(_ & Z)|Z]; [discriminate|]. destruct q as [a|w|c2 k2]; try discriminate.
  assert (HE : head (Call c1 k1) = head (Call c2 k2)) by (rewrite Z; reflexivity). cbn [head] in HE. injection HE as ->. eapply O; reflexivity.
Qed.

Lemma program_silent fuel s argv ws fs tr p' text : trace_of (main fuel s argv) tr p' ->
  Exists (fun e => match e with Ev c _ => ~ is_print c end) tr ->
  asks (posix_env s) (tl argv) ws fs -> existsb is_verbose ws = false -> ~ In Dry_run ws -> ~ In Inline_mode ws ->
  ~ (exists a r, argv = a :: r /\ called a (bs "inline-detox")) ->
  In (Ev (Print Stdout text) tt) tr ->
  text = unterminated /\ exists file c said, last_of config_named ws file /\
    config_file_load_says (m_env s) file = (said, Ok c) /\ In (Stdout, text) said.
Proof.
  intros T X A V D I B P. destruct (program_asks _ _ _ _ _ T X) as (ws' & fs' & o & c & said & St & Pr & H).
  destruct (asks_unique _ _ _ _ _ _ A (st_asks _ _ _ _ _ _ St)) as [-> ->].
  assert (Im : o_is_inline_mode o = false).
  { destruct (o_is_inline_mode o) eqn:Im; auto. apply (st_inline _ _ _ _ _ _ St) in Im. tauto. }
  destruct (H Im) as (tr2 & -> & F & _). apply in_app_or in P. destruct P as [P|P].
  - destruct Pr as (file & name & s0 & s1 & said1 & said2 & L & Cf & _ & _ & Rv & ->).
    apply in_map_iff in P. destruct P as ([out t] & P & It). injection P as -> ->.
    apply in_app_or in It. destruct It as [It|It].
    + split; [|eauto 6]. pose proof (config_load_speaks (m_env s) file) as Sp. rewrite Cf in Sp. unfold speaks in Sp. cbn [fst] in Sp.
      rewrite Forall_forall in Sp. exact (Sp _ It eq_refl).
    + exfalso. pose proof (review_speaks s s0) as Sp. rewrite Rv in Sp. unfold speaks in Sp. cbn [fst] in Sp.
      rewrite Forall_forall in Sp. discriminate (Sp _ It).
  - exfalso. rewrite Forall_forall in F. specialize (F _ P). cbn [asked] in F.
    assert (V0 : o_verbose o = 0%N).
    { rewrite (st_verbose _ _ _ _ _ _ St). destruct (filter is_verbose ws) as [|w l] eqn:Fi; [reflexivity|].
      assert (In w ws /\ is_verbose w = true) as [Iw Vw] by (apply filter_In; rewrite Fi; now left).
      assert (existsb is_verbose ws = true) by (apply existsb_exists; eauto). congruence. }
    destruct F as [(F & _)|([F|F] & _)]; [lia|lia|]. apply (st_dry_run _ _ _ _ _ _ St) in F. tauto.
Qed.
