(** * The filters' complaints are determined by the name *)

From Verif Require Import Base BaseFacts Stdio Table CleanString CleanUtf8 CleanSpec Utf8Spec CleanStringProofs CleanUtf8Proofs
  Filter SequenceSpec SequenceProofs ParseTableSpec EscapeSpec EscapeProofs3 CheckProofs2 Prog Warnings WarningsProofs
  WarningsSpec WarningsProofs2.

Lemma eight_digits_fun n a b : eight_digits n a -> eight_digits n b -> b = a.
Proof.
  intros (D & C & L) (D' & C' & L'). refine (digits_text _ _ _ n upper_fun C' C _ D' D). congruence.
Qed.

Lemma value_remark_fun e v a b : value_remark e v a -> value_remark e v b -> b = a.
Proof.
  intros [r E|E Z|ds E G D|E G] [r' E'|E' Z'|ds' E' G' D'|E' G']; try congruence; try lia; try reflexivity.
  now rewrite (eight_digits_fun v ds ds').
Qed.

Lemma utf8_remarks_fun e s a b : utf8_remarks e s a -> utf8_remarks e s b -> b = a.
Proof.
  intros H. revert b. induction H as [|u cp s w l Q V H IH|c conts w W L F|c conts w d s l W L F D H IH|c s l W H IH]; intros b H2.
  - now apply utf8_remarks_nil in H2.
  - apply (utf8_remarks_seq _ _ _ _ _ Q) in H2. destruct H2 as (w' & l' & -> & V' & H'). rewrite (value_remark_fun _ _ _ _ V V'), (IH _ H'). reflexivity.
  - remember (c :: conts) as z eqn:Ez in H2.
    destruct H2 as [|u' cp' s' w' l' Q' V' H'|c' conts' w' W' L' F'|c' conts' w' d' s' l' W' L' F' D' H'|c' s' l' W' H'].
    + discriminate.
    + destruct Q' as [c' conts' w2 W' Lc' Fc']. simpl in Ez. injection Ez as -> Ez. rewrite W in W'. injection W' as <-.
      exfalso. subst conts. rewrite app_length in L. lia.
    + reflexivity.
    + injection Ez as -> Ez. exfalso. subst conts. apply Forall_app in F. destruct F as [_ F]. inversion F; subst. contradiction.
    + injection Ez as -> _. congruence.
  - remember (c :: conts ++ d :: s) as z eqn:Ez in H2.
    destruct H2 as [|u' cp' s' w' l' Q' V' H'|c' conts' w' W' L' F'|c' conts' w' d' s' l' W' L' F' D' H'|c' s' l' W' H'].
    + discriminate.
    + destruct Q' as [c' conts' w2 W' Lc' Fc']. simpl in Ez. injection Ez as -> Ez. rewrite W in W'. injection W' as <-.
      exfalso. apply D. symmetry in Ez. apply (cut_vs_complete _ _ _ _ Ez F Fc'). lia.
    + injection Ez as -> Ez. exfalso. subst conts'. apply Forall_app in F'. destruct F' as [_ F']. inversion F'; subst. contradiction.
    + injection Ez as -> Ez. apply split_conts in Ez; auto. destruct Ez as [-> Ez]. injection Ez as -> ->. f_equal. auto.
    + injection Ez as -> _. congruence.
  - remember (c :: s) as z eqn:Ez in H2.
    destruct H2 as [|u' cp' s' w' l' Q' V' H'|c' conts' w' W' L' F'|c' conts' w' d' s' l' W' L' F' D' H'|c' s' l' W' H'].
    + discriminate.
    + destruct Q' as [c' conts' w2 W' Lc' Fc']. simpl in Ez. injection Ez as -> _. congruence.
    + injection Ez as -> _. congruence.
    + injection Ez as -> _. congruence.
    + injection Ez as -> ->. f_equal. auto.
Qed.

Lemma length_remarks_fun m s a b : length_remarks m s a -> length_remarks m s b -> b = a.
Proof.
  intros [L|x L K G|x L K G] [L'|x' L' K' G'|x' L' K' G']; try reflexivity; try lia;
    rewrite (kept_extension_fun _ _ _ K K') in *; lia.
Qed.

Lemma filter_remarks_fun f s a b : filter_remarks f s a -> filter_remarks f s b -> b = a.
Proof.
  unfold filter_remarks. destruct (f_cleaner f); try congruence.
  - destruct (f_table f); apply length_remarks_fun.
  - destruct (f_table f); [apply utf8_remarks_fun|congruence].
Qed.

Lemma sequence_remarks_fun pf fs s a b : sequence_remarks pf fs s a -> sequence_remarks pf fs s b -> b = a.
Proof.
  intros H. revert b. induction H as [|f fs s m l1 l2 F R H IH]; intros b H2; inversion H2; subst; [reflexivity|].
  rewrite R in *. match goal with X : Ok _ = Ok _ |- _ => injection X as <- end.
  f_equal; [eapply filter_remarks_fun; eauto|auto].
Qed.

(** ** The last words *)

Definition no_exit {A} (r : res A) : Prop := forall c, r <> Exit c.

Lemma no_exit_bind {A B} (r : res A) (f : A -> res B) : no_exit r -> (forall a, no_exit (f a)) -> no_exit (bind r f).
Proof. intros H F. destruct r as [a|u|c]; cbn [bind]; [apply F|discriminate|]. exfalso. now apply (H c). Qed.

Lemma no_exit_ok {A} (a : A) : no_exit (Ok a).
Proof. discriminate. Qed.

Lemma wr_no_exit cap acc c : no_exit (wr cap acc c).
Proof. unfold wr. intros x. destruct (_ <? _)%N; discriminate. Qed.

Lemma wrs_no_exit cap s : forall acc, no_exit (wrs cap acc s).
Proof.
  induction s as [|c s IH]; intros acc; cbn [wrs]; [apply no_exit_ok|].
  apply no_exit_bind; [apply wr_no_exit|apply IH].
Qed.

Lemma finish_no_exit cap acc : no_exit (finish cap acc).
Proof. apply no_exit_bind; [apply wr_no_exit|intros; apply no_exit_ok]. Qed.

Lemma iso8859_1_no_exit s t : no_exit (clean_iso8859_1 s (Some t)).
Proof.
  unfold clean_iso8859_1. apply no_exit_bind; [|apply finish_no_exit]. generalize (@nil byte) as acc.
  generalize (table_cap t s) as cap. intros cap. induction s as [|x s IH]; intros acc; cbn [iso8859_1_loop]; [apply no_exit_ok|].
  destruct (_ =? 0)%N; [|destruct (table_get t _); [|destruct (t_default t)]]; (apply no_exit_bind; [apply wr_no_exit || apply wrs_no_exit|apply IH]).
Qed.

Lemma safe_no_exit schar s t : no_exit (clean_safe schar s (Some t)).
Proof.
  unfold clean_safe. apply no_exit_bind; [|apply finish_no_exit]. generalize (@nil byte) as acc.
  generalize (table_cap t s) as cap. intros cap. induction s as [|x s IH]; intros acc; cbn [safe_loop]; [apply no_exit_ok|].
  destruct (table_get t _); [|destruct (t_default t)]; (apply no_exit_bind; [apply wr_no_exit || apply wrs_no_exit|apply IH]).
Qed.

Lemma utf_8_no_exit s t : no_exit (clean_utf_8 s (Some t)).
Proof.
  unfold clean_utf_8. cbv zeta. apply no_exit_bind; [|apply finish_no_exit]. generalize (@nil byte) as acc.
  generalize (table_cap t s) as cap. intros cap. generalize (length s) as n. intros n. revert s.
  induction n as [|n IH]; intros [|c s] acc; cbn [utf_8_loop]; try apply no_exit_ok.
  destruct (get_utf_8_width c) as [w|]; [|apply no_exit_bind; [apply wr_no_exit|intros; apply IH]].
  destruct (utf_8_cont_loop _ _ _ _) as [[[v e] r]|r]; [|apply no_exit_bind; [apply wr_no_exit|intros; apply IH]].
  destruct (utf_8_replacement t v); (apply no_exit_bind; [apply wrs_no_exit|intros; apply IH]).
Qed.

Lemma uncgi_no_exit s : no_exit (clean_uncgi s).
Proof.
  unfold clean_uncgi. cbv zeta. apply no_exit_bind; [|apply finish_no_exit]. generalize (@nil byte) as acc.
  generalize (size_t (strlen s + 1)) as cap. intros cap.
  assert (G : forall n s, length s <= n -> forall acc, no_exit (uncgi_loop cap s acc)); [|intros; now apply (G (length s))].
  clear s. induction n as [|n IH]; intros [|c s] L acc; cbn [uncgi_loop]; cbn [length] in L; try apply no_exit_ok; [lia|].
  destruct s as [|a [|b s]]; cbn [length] in L.
  1,2: destruct (beq c _); (apply no_exit_bind; [apply wr_no_exit|]; intros; apply IH; cbn [length]; lia).
  destruct (_ && _)%bool; [|destruct (beq c _)]; (apply no_exit_bind; [apply wr_no_exit|]; intros; apply IH; cbn [length]; lia).
Qed.

Lemma wipeup_no_exit s r : no_exit (clean_wipeup s r).
Proof.
  unfold clean_wipeup. cbv zeta. apply no_exit_bind; [|apply finish_no_exit].
  generalize (size_t (strlen (wipeup_skip s) + 1)) as cap. generalize (wipeup_skip s) as x. generalize (@nil byte) as acc.
  generalize (@None nat) as cur. intros cur acc x cap. revert cur acc. induction x as [|c x IH]; intros cur acc; cbn [wipeup_loop].
  - destruct cur; [apply wr_no_exit|apply no_exit_ok].
  - destruct (strchr_idx _ c 0); [apply IH|]. apply no_exit_bind; [destruct cur; [apply wr_no_exit|apply no_exit_ok]|].
    intros a. apply no_exit_bind; [apply wr_no_exit|]. intros; apply IH.
Qed.

Lemma lower_no_exit ct s : no_exit (clean_lower ct s).
Proof.
  unfold clean_lower. cbv zeta. apply no_exit_bind; [|apply finish_no_exit]. generalize (@nil byte) as acc.
  generalize (size_t (strlen s + 1)) as cap. intros cap. induction s as [|x s IH]; intros acc; cbn [lower_loop]; [apply no_exit_ok|].
  apply no_exit_bind; [destruct (ct_isupper ct x); apply wr_no_exit|apply IH].
Qed.

Lemma max_length_no_exit s m : no_exit (clean_max_length s m).
Proof.
  unfold clean_max_length. cbv zeta. intros c. destruct (_ <=? _)%N; [discriminate|]. destruct (strrchr s _) as [[b e]|]; [|discriminate].
  destruct (_ =? 1)%N; [discriminate|]. destruct (_ <=? _)%N; [discriminate|]. destruct (_ <=? _)%N; discriminate.
Qed.

Lemma filter_last_words pf f s c : filter_run pf f (Some s) = Exit c ->
  c = EXIT_FAILURE /\ exists text, last_words f text /\ fst (filter_run_says pf f (Some s)) = [as_line text].
Proof.
  unfold filter_run, filter_run_says. cbv zeta. intros E.
  assert (X : forall A B (r : res A) (g : A -> res B) x, no_exit r -> (forall a, no_exit (g a)) -> bind r g <> Exit x).
  { intros A B r g x H G. now apply no_exit_bind. }
  destruct (f_cleaner f) eqn:F; try (exfalso; revert E; apply X; [|intros; apply no_exit_ok];
    first [apply lower_no_exit|apply max_length_no_exit|apply uncgi_no_exit|apply wipeup_no_exit]).
  - destruct (f_table f) as [t|] eqn:T; [exfalso; revert E; apply X; [apply iso8859_1_no_exit|intros; apply no_exit_ok]|].
    cbn in E. injection E as <-. split; [reflexivity|]. exists (bs "internal error"). split; [|reflexivity].
    apply lw_no_table; auto. rewrite F. simpl. tauto.
  - destruct (f_table f) as [t|] eqn:T; [exfalso; revert E; apply X; [apply safe_no_exit|intros; apply no_exit_ok]|].
    cbn in E. injection E as <-. split; [reflexivity|]. exists (bs "internal error"). split; [|reflexivity].
    apply lw_no_table; auto. rewrite F. simpl. tauto.
  - destruct (f_table f) as [t|] eqn:T; [exfalso; revert E; apply X; [apply utf_8_no_exit|intros; apply no_exit_ok]|].
    cbn in E. injection E as <-. split; [reflexivity|]. exists (bs "internal error"). split; [|reflexivity].
    apply lw_no_table; auto. rewrite F. simpl. tauto.
  - injection E as <-. split; [reflexivity|]. eexists. split; [eapply lw_unknown; eauto|]. reflexivity.
Qed.

Lemma filters_last_words pf : forall fs s c, run_filters pf fs (Some s) = Exit c ->
  c = EXIT_FAILURE /\ exists pre f post m l text, fs = pre ++ f :: post /\ run_filters pf pre (Some s) = Ok (Some m) /\
    sequence_remarks pf pre s l /\ last_words f text /\ fst (run_filters_says pf fs (Some s)) = map as_line (l ++ [text]).
Proof.
  induction fs as [|f fs IH]; intros s c E; [discriminate|]. cbn [run_filters] in E. cbn [run_filters_says].
  rewrite talk_texts, filter_result. destruct (filter_run pf f (Some s)) as [m|u|z] eqn:F; cbn [bind] in E; try discriminate.
  - destruct m as [m|]; [|destruct fs; discriminate]. destruct (filter_says pf f s (Some m) F) as (l1 & R1 & ->).
    destruct (IH m c E) as (-> & pre & g & post & m2 & l2 & text & -> & Rn & R2 & W & ->). split; [reflexivity|].
    exists (f :: pre), g, post, m2, (l1 ++ l2), text. splits; auto.
    + cbn [run_filters]. rewrite F. exact Rn.
    + econstructor; eauto.
    + now rewrite <- app_assoc, !map_app.
  - injection E as ->. destruct (filter_last_words pf f s c F) as (-> & text & W & ->). split; [reflexivity|].
    exists [], f, fs, s, [], text. splits; auto. constructor.
Qed.
