(** * Proofs about running sequences *)

From Verif Require Import Base BaseFacts Table BuiltinTables TableSpec TableProofs CleanString CleanUtf8
  CleanSpec Utf8Spec CleanStringProofs CleanUtf8Proofs Filter Spoof SequenceSpec.

Local Opaque load_builtin_safe_table load_builtin_iso8859_1_table load_builtin_cp1252_table
  load_builtin_unicode_table.

Local Arguments filter_run : simpl never.

(** ** Composition *)

Lemma filter_run_some pf f s r : filter_run pf f (Some s) = Ok r -> exists o, r = Some o.
Proof.
  unfold filter_run. destruct (f_cleaner f); try discriminate;
  match goal with |- context [bind ?m _] => destruct m; simpl; try discriminate end;
  intros [= <-]; eauto.
Qed.

Lemma run_filters_none pf fs : run_filters pf fs None = Ok None.
Proof. now destruct fs. Qed.

Lemma run_filters_app pf fs1 fs2 w :
  run_filters pf (fs1 ++ fs2) w = bind (run_filters pf fs1 w) (run_filters pf fs2).
Proof.
  revert w. induction fs1 as [|f fs1 IH]; intros w; simpl.
  - reflexivity.
  - destruct w as [s|]; simpl; [|now rewrite run_filters_none].
    destruct (filter_run pf f (Some s)); simpl; auto.
Qed.

Lemma run_filters_some pf fs s r : run_filters pf fs (Some s) = Ok r -> exists o, r = Some o.
Proof.
  revert s. induction fs as [|f fs IH]; intros s; simpl.
  - intros [= <-]. eauto.
  - destruct (filter_run pf f (Some s)) as [m| |] eqn:E; simpl; try discriminate.
    destruct (filter_run_some pf f s m E) as [o ->]. apply IH.
Qed.

Lemma applied_iff pf fs s o : run_filters pf fs (Some s) = Ok (Some o) <-> applied pf fs s o.
Proof.
  split.
  - revert s. induction fs as [|f fs IH]; intros s; simpl.
    + intros [= <-]. constructor.
    + destruct (filter_run pf f (Some s)) as [m| |] eqn:E; simpl; try discriminate.
      destruct (filter_run_some pf f s m E) as [x ->]. intros H. econstructor; eauto.
  - induction 1 as [|f fs s m o E _ IH]; simpl; [reflexivity|]. now rewrite E.
Qed.

Lemma sequence_run pf seq s :
  sequence_run_filters pf (Some seq) (Some s) = run_filters pf (s_filters seq) (Some s).
Proof. reflexivity. Qed.

(** ** The wipeup result as a function *)

Definition wipe (s : str) : str := wipeup_out (search_of true) (wipeup_skip s) None.

Lemma wipe_wiped s : wiped true s (wipe s).
Proof.
  destruct (wipeup_skip_spec s) as (j & E & F & St).
  destruct (wipeup_out_spec true (wipeup_skip s)) as [R _]. exists j, (wipeup_skip s). auto.
Qed.

Lemma wiped_incl dots s o : wiped dots s o -> incl o s.
Proof.
  intros (j & b & -> & _ & _ & R) c I. apply in_app_iff. right. eapply runs_collapsed_in; eauto.
Qed.

Lemma wiped_length dots s o : wiped dots s o -> (length o <= length s)%nat.
Proof.
  intros (j & b & -> & _ & _ & R). rewrite app_length.
  assert (length o <= length b)%nat; [|lia].
  induction R as [|c s o Nc H IH|r c s o Nr Fr Ns Sr H IH]; simpl; try lia.
  rewrite app_length. destruct r; [easy|]. simpl. lia.
Qed.

Lemma nonul_incl a b : incl a b -> nonul b -> nonul a.
Proof. intros I N H. apply N. now apply I. Qed.

Lemma clean_wipe s : nonul s -> in_memory s -> clean_wipeup s true = Ok (wipe s).
Proof.
  intros N M. rewrite clean_wipeup_eq by assumption. f_equal. apply cstr_nonul.
  eapply nonul_incl; [eapply wiped_incl, wipe_wiped | assumption].
Qed.

Lemma wipe_fixed o : wiped true o o -> wipe o = o.
Proof. intros W. eapply wiped_fun; [apply wipe_wiped | assumption]. Qed.

Lemma wipe_idem s : wipe (wipe s) = wipe s.
Proof. apply wipe_fixed. eapply wiped_idem, wipe_wiped. Qed.

Lemma wipe_portable s : Forall (fun c => ~ difficult c) s -> portable (wipe s).
Proof.
  intros F. pose proof (wiped_props true s (wipe s) (wipe_wiped s)) as (P1 & P2 & _).
  unfold portable. splits; auto.
  eapply incl_Forall; [|exact F]. apply (wiped_incl true), wipe_wiped.
Qed.

Lemma in_memory_le (a b : str) : (length a <= length b)%nat -> in_memory b -> in_memory a.
Proof. unfold in_memory, strlen. lia. Qed.

Lemma wipe_in_memory s : in_memory s -> in_memory (wipe s).
Proof. apply in_memory_le. eapply wiped_length, wipe_wiped. Qed.

Lemma wipe_nonul s : nonul s -> nonul (wipe s).
Proof. apply nonul_incl. eapply wiped_incl, wipe_wiped. Qed.

(** ** The shipped sequences with their tables *)

Definition safe_filter : filter_t :=
  mkFilter F_safe None (Some (bs "safe")) false 0 (Some load_builtin_safe_table).
Definition wipeup_filter : filter_t := mkFilter F_wipeup None None true 0 None.

Lemma review_eq name fs src fs' :
  (forall datadir parse, review_filters datadir parse fs = Ok fs') ->
  sequence_choose_default (cf_sequences spoof_config_file) (Some name) = Some (mkSequence name fs src) ->
  forall seq, shipped name seq -> s_filters seq = fs'.
Proof.
  intros R C seq (dd & parse & s0 & H1 & H2). rewrite C in H1. injection H1 as <-.
  unfold sequence_review in H2. simpl in H2. rewrite R in H2. simpl in H2. now injection H2 as <-.
Qed.

Ltac review := eapply review_eq; [| reflexivity]; intros; reflexivity.

Lemma shipped_default seq : shipped (bs "default") seq -> s_filters seq = [safe_filter; wipeup_filter].
Proof. revert seq. review. Qed.

Definition table_filter (c : cleaner) (b : string) (t : table) : filter_t :=
  mkFilter c None (Some (bs b)) false 0 (Some t).

Lemma shipped_iso8859_1 seq : shipped (bs "iso8859_1") seq ->
  s_filters seq = [table_filter F_iso8859_1 "iso8859_1" load_builtin_iso8859_1_table; safe_filter; wipeup_filter].
Proof. revert seq. review. Qed.

Lemma shipped_legacy seq : shipped (bs "iso8859_1-legacy") seq ->
  s_filters seq = [table_filter F_iso8859_1 "cp1252" load_builtin_cp1252_table;
                   table_filter F_iso8859_1 "iso8859_1" load_builtin_iso8859_1_table; safe_filter; wipeup_filter].
Proof. revert seq. review. Qed.

Lemma shipped_utf_8 seq : shipped (bs "utf_8") seq ->
  s_filters seq = [table_filter F_utf_8 "unicode" load_builtin_unicode_table; safe_filter; wipeup_filter].
Proof. revert seq. review. Qed.

Lemma shipped_uncgi seq : shipped (bs "uncgi") seq ->
  s_filters seq = [filter_init F_uncgi; safe_filter; wipeup_filter].
Proof. revert seq. review. Qed.

Lemma shipped_lower seq : shipped (bs "lower") seq ->
  s_filters seq = [safe_filter; filter_init F_lower; wipeup_filter].
Proof. revert seq. review. Qed.

Lemma shipped_uncgi_only seq : shipped (bs "uncgi-only") seq -> s_filters seq = [filter_init F_uncgi].
Proof. revert seq. review. Qed.

Lemma shipped_utf_8_only seq : shipped (bs "utf_8-only") seq ->
  s_filters seq = [table_filter F_utf_8 "unicode" load_builtin_unicode_table].
Proof. revert seq. review. Qed.

(** ** Running them *)

Definition small (s : str) : Prop := (strlen s < 2 ^ 50)%N.

Lemma small_in_memory s : small s -> in_memory s.
Proof.
  unfold small, in_memory. change (2 ^ 50)%N with 1125899906842624%N.
  change (2 ^ 60)%N with 1152921504606846976%N. lia.
Qed.

Lemma small_57 s : small s -> (strlen s < 2 ^ 57)%N.
Proof.
  unfold small. change (2 ^ 50)%N with 1125899906842624%N.
  change (2 ^ 57)%N with 144115188075855872%N. lia.
Qed.

Lemma run_safe pf s : nonul s -> in_memory s ->
  filter_run pf safe_filter (Some s) = Ok (Some (flat_map safe_spec s)).
Proof. intros N M. unfold filter_run. cbn [f_cleaner safe_filter f_table]. now rewrite builtin_safe_eq. Qed.

Lemma run_wipeup pf s : nonul s -> in_memory s ->
  filter_run pf wipeup_filter (Some s) = Ok (Some (wipe s)).
Proof.
  intros N M. unfold filter_run. cbn [f_cleaner wipeup_filter f_remove_trailing]. now rewrite clean_wipe.
Qed.

Lemma safe_nonul s : nonul s -> nonul (flat_map safe_spec s).
Proof. intros N. apply flat_map_nonul_in; auto using safe_spec_nonul. Qed.

Lemma run_safe_wipeup pf s : nonul s -> (strlen s < 2 ^ 57)%N ->
  run_filters pf [safe_filter; wipeup_filter] (Some s) = Ok (Some (wipe (flat_map safe_spec s))).
Proof.
  intros N M. cbn [run_filters].
  rewrite run_safe; [|assumption|].
  - cbn [bind]. rewrite run_wipeup; [reflexivity | now apply safe_nonul | now apply safe_out_in_memory].
  - unfold in_memory. change (2 ^ 57)%N with 144115188075855872%N in M.
    change (2 ^ 60)%N with 1152921504606846976%N. lia.
Qed.

Lemma tail_portable s : portable (wipe (flat_map safe_spec s)).
Proof. apply wipe_portable, safe_output_clean. Qed.

(** Safe and wipeup leave a portable name alone. *)
Lemma portable_wiped o : portable o -> wipe o = o.
Proof.
  intros (_ & A & J). apply wipe_fixed. exists [], o. splits; auto.
  now apply runs_collapsed_fixed.
Qed.

Lemma portable_safe o : portable o -> flat_map safe_spec o = o.
Proof.
  intros (F & _). apply flat_map_id. intros c I. apply safe_spec_keep. rewrite Forall_forall in F. now apply F.
Qed.

Lemma safe_wipe_portable_fixed o : portable o -> wipe (flat_map safe_spec o) = o.
Proof. intros P. rewrite (portable_safe o P). now apply portable_wiped. Qed.

(** *** Totality and results of each *)

Definition mem57 (s : str) : Prop := (strlen s < 2 ^ 57)%N.

Lemma growth (f : byte -> str) m s :
  (forall c, (length (f c) <= m)%nat) -> (m <= 4)%nat -> small s -> (strlen (flat_map f s) < 2 ^ 53)%N.
Proof.
  unfold small, strlen. change (2 ^ 50)%N with 1125899906842624%N.
  change (2 ^ 53)%N with 9007199254740992%N. intros H Hm M.
  pose proof (flat_map_length_le f m s H). nia.
Qed.

Lemma iso_spec_length c : (length (iso8859_1_spec c) <= 2)%nat.
Proof.
  apply Nat.leb_le. revert c. apply (byte_sweep (fun c => (length (iso8859_1_spec c) <=? 2)%nat)).
  vm_compute. reflexivity.
Qed.

Lemma run_default pf seq s :
  shipped (bs "default") seq -> nonul s -> small s ->
  sequence_run_filters pf (Some seq) (Some s) = Ok (Some (wipe (flat_map safe_spec s))).
Proof.
  intros H N M. rewrite sequence_run, (shipped_default seq H). apply run_safe_wipeup; auto using small_57.
Qed.

Lemma run_iso pf b t rest s o :
  clean_iso8859_1 s (Some t) = Ok o ->
  run_filters pf (table_filter F_iso8859_1 b t :: rest) (Some s) = run_filters pf rest (Some o).
Proof. intros E. cbn [run_filters]. unfold filter_run. cbn [f_cleaner table_filter f_table]. now rewrite E. Qed.

Lemma small_53 s : (strlen s < 2 ^ 53)%N -> (strlen s < 2 ^ 57)%N /\ in_memory s.
Proof.
  unfold in_memory. change (2 ^ 53)%N with 9007199254740992%N. change (2 ^ 57)%N with 144115188075855872%N.
  change (2 ^ 60)%N with 1152921504606846976%N. lia.
Qed.

Lemma run_iso8859_1 pf seq s :
  shipped (bs "iso8859_1") seq -> nonul s -> small s ->
  sequence_run_filters pf (Some seq) (Some s)
  = Ok (Some (wipe (flat_map safe_spec (flat_map iso8859_1_spec s)))).
Proof.
  intros H N M. rewrite sequence_run, (shipped_iso8859_1 seq H).
  rewrite (run_iso _ _ _ _ _ _ (builtin_iso8859_1_eq s N (small_in_memory s M))).
  apply run_safe_wipeup.
  - apply flat_map_nonul_in; auto using iso_spec_nonul.
  - apply small_53. apply (growth _ 2); auto using iso_spec_length.
Qed.

Lemma run_legacy pf seq s :
  shipped (bs "iso8859_1-legacy") seq -> nonul s -> small s ->
  sequence_run_filters pf (Some seq) (Some s)
  = Ok (Some (wipe (flat_map safe_spec (flat_map iso8859_1_spec (flat_map cp1252_spec s))))).
Proof.
  intros H N M. rewrite sequence_run, (shipped_legacy seq H).
  rewrite (run_iso _ _ _ _ _ _ (builtin_cp1252_eq s N (small_in_memory s M))).
  assert (N2 : nonul (flat_map cp1252_spec s)) by (apply flat_map_nonul_in; auto using cp1252_spec_nonul).
  assert (M2 : (strlen (flat_map cp1252_spec s) < 2 ^ 53)%N) by (apply (growth _ 3); auto using cp1252_spec_length).
  rewrite (run_iso _ _ _ _ _ _ (builtin_iso8859_1_eq _ N2 (proj2 (small_53 _ M2)))).
  apply run_safe_wipeup.
  - apply flat_map_nonul_in; auto using iso_spec_nonul.
  - pose proof (flat_map_length_le iso8859_1_spec 2 (flat_map cp1252_spec s) iso_spec_length).
    unfold strlen in *. change (2 ^ 53)%N with 9007199254740992%N in M2.
    change (2 ^ 57)%N with 144115188075855872%N. lia.
Qed.

Lemma run_lower pf seq s :
  p_ctype pf = c_locale -> shipped (bs "lower") seq -> nonul s -> small s ->
  sequence_run_filters pf (Some seq) (Some s)
  = Ok (Some (wipe (map lower_spec (flat_map safe_spec s)))).
Proof.
  intros CT H N M. rewrite sequence_run, (shipped_lower seq H). cbn [run_filters].
  assert (M2 : in_memory (flat_map safe_spec s)) by (apply safe_out_in_memory; now apply small_57).
  rewrite run_safe; auto using small_in_memory. cbn [bind].
  unfold filter_run at 1. cbn [f_cleaner filter_init]. rewrite CT.
  rewrite clean_lower_c; auto using safe_nonul. cbn [bind].
  rewrite run_wipeup; [reflexivity| |].
  - intros I. apply in_map_iff in I. destruct I as (c & E & I).
    apply (lower_spec_nonul c); [|assumption]. apply (nonul_not_nul (flat_map safe_spec s)); auto using safe_nonul.
  - eapply in_memory_le; [|exact M2]. now rewrite map_length.
Qed.

Lemma run_uncgi pf seq s :
  shipped (bs "uncgi") seq -> nonul s -> small s ->
  sequence_run_filters pf (Some seq) (Some s)
  = Ok (Some (wipe (flat_map safe_spec (cstr (uncgi_out s))))).
Proof.
  intros H N M. rewrite sequence_run, (shipped_uncgi seq H).
  assert (E : run_filters pf [filter_init F_uncgi; safe_filter; wipeup_filter] (Some s)
              = run_filters pf [safe_filter; wipeup_filter] (Some (cstr (uncgi_out s)))).
  { cbn [run_filters]. unfold filter_run at 1. cbn [f_cleaner filter_init].
    now rewrite clean_uncgi_eq by now apply small_in_memory. }
  rewrite E. apply run_safe_wipeup; [apply nonul_cstr|].
  apply small_57 in M. pose proof (uncgi_out_length s). pose proof (cstr_length (uncgi_out s)).
  unfold strlen in *. lia.
Qed.

Lemma run_utf_8_ok pf seq s u :
  shipped (bs "utf_8") seq -> nonul s -> small s ->
  clean_utf_8 s (Some load_builtin_unicode_table) = Ok u ->
  sequence_run_filters pf (Some seq) (Some s) = Ok (Some (wipe (flat_map safe_spec u))) /\ nonul u.
Proof.
  intros H N M E. rewrite sequence_run, (shipped_utf_8 seq H).
  pose proof (builtin_unicode_output s u N (small_in_memory s M) E) as (_ & Nu & _).
  split; [|assumption].
  cbn [run_filters]. unfold filter_run at 1. cbn [f_cleaner table_filter f_table]. rewrite E.
  cbn [bind]. apply (run_safe_wipeup pf u Nu).
  destruct (builtin_unicode_exact s N (small_in_memory s M)) as (o & _ & X & _). rewrite X in E.
  destruct (N.leb_spec (strlen o) (strlen s)); [|discriminate]. injection E as ->.
  apply small_57 in M. lia.
Qed.

Lemma run_utf_8_inv pf seq s o :
  shipped (bs "utf_8") seq -> nonul s -> small s ->
  sequence_run_filters pf (Some seq) (Some s) = Ok (Some o) ->
  exists u, clean_utf_8 s (Some load_builtin_unicode_table) = Ok u /\ nonul u /\ o = wipe (flat_map safe_spec u).
Proof.
  intros H N M E.
  destruct (clean_utf_8 s (Some load_builtin_unicode_table)) as [u|w|w] eqn:C.
  - exists u. destruct (run_utf_8_ok pf seq s u H N M C) as [E' Nu]. rewrite E' in E. injection E as <-. auto.
  - rewrite sequence_run, (shipped_utf_8 seq H) in E. cbn [run_filters] in E.
    unfold filter_run at 1 in E. cbn [f_cleaner table_filter f_table] in E. rewrite C in E. discriminate.
  - rewrite sequence_run, (shipped_utf_8 seq H) in E. cbn [run_filters] in E.
    unfold filter_run at 1 in E. cbn [f_cleaner table_filter f_table] in E. rewrite C in E. discriminate.
Qed.

Lemma lower_not_difficult c : ~ difficult c -> ~ difficult (lower_spec c).
Proof.
  intros D H. apply D. apply difficultb_iff. apply difficultb_iff in H.
  assert (S : forall c, (if difficultb (lower_spec c) then difficultb c else true) = true).
  { apply byte_sweep. vm_compute. reflexivity. }
  specialize (S c). now rewrite H in S.
Qed.

Lemma lower_portable s :
  portable (wipe (map lower_spec (flat_map safe_spec s))) .
Proof.
  apply wipe_portable. apply Forall_forall. intros c I. apply in_map_iff in I.
  destruct I as (d & <- & I). apply lower_not_difficult.
  pose proof (safe_output_clean s) as F. rewrite Forall_forall in F. now apply F.
Qed.

Lemma lower_fixed s :
  map lower_spec (wipe (map lower_spec (flat_map safe_spec s))) = wipe (map lower_spec (flat_map safe_spec s)).
Proof.
  rewrite <- (map_id (wipe _)) at 2. apply map_ext_in. intros c I.
  apply (wiped_incl true _ _ (wipe_wiped _)) in I. apply in_map_iff in I. destruct I as (d & <- & _).
  apply lower_spec_idem.
Qed.

(** ** Portability *)

Definition main_sequences : list str :=
  [bs "default"; bs "iso8859_1"; bs "iso8859_1-legacy"; bs "utf_8"; bs "uncgi"; bs "lower"].

Lemma shipped_portable pf name seq s o :
  In name [bs "default"; bs "iso8859_1"; bs "iso8859_1-legacy"; bs "utf_8"; bs "uncgi"; bs "lower"] ->
  (name = bs "lower" -> p_ctype pf = c_locale) -> shipped name seq -> nonul s -> small s ->
  sequence_run_filters pf (Some seq) (Some s) = Ok (Some o) -> portable o.
Proof.
  intros I CT H N M E.
  destruct I as [<-|[<-|[<-|[<-|[<-|[<-|[]]]]]]].
  - rewrite (run_default pf seq s) in E by assumption. injection E as <-. apply tail_portable.
  - rewrite (run_iso8859_1 pf seq s) in E by assumption. injection E as <-. apply tail_portable.
  - rewrite (run_legacy pf seq s) in E by assumption. injection E as <-. apply tail_portable.
  - destruct (run_utf_8_inv pf seq s o) as (u & _ & _ & ->); auto. apply tail_portable.
  - rewrite (run_uncgi pf seq s) in E by assumption. injection E as <-. apply tail_portable.
  - rewrite (run_lower pf seq s) in E by auto. injection E as <-. apply lower_portable.
Qed.

Lemma shipped_total pf name seq s :
  In name [bs "default"; bs "iso8859_1"; bs "iso8859_1-legacy"; bs "utf_8"; bs "uncgi"; bs "lower"] ->
  (name = bs "lower" -> p_ctype pf = c_locale) -> shipped name seq -> nonul s -> small s ->
  (name = bs "utf_8" -> forall u, infix u s -> ~ overlong_nul u) ->
  exists o, sequence_run_filters pf (Some seq) (Some s) = Ok (Some o).
Proof.
  intros I CT H N M U.
  destruct I as [<-|[<-|[<-|[<-|[<-|[<-|[]]]]]]].
  - eexists. apply run_default; assumption.
  - eexists. apply run_iso8859_1; assumption.
  - eexists. apply run_legacy; assumption.
  - destruct (builtin_unicode_safe s N (small_in_memory s M) (U eq_refl)) as (u & E).
    eexists. eapply run_utf_8_ok; eassumption.
  - eexists. apply run_uncgi; assumption.
  - eexists. apply run_lower; auto.
Qed.

(** ** Settled text survives safe and wipeup *)

(** [o] is [s] with some 7-bit characters dropped. *)
Inductive dropped : str -> str -> Prop :=
| dr_nil : dropped [] []
| dr_keep c s o : dropped s o -> dropped (c :: s) (c :: o)
| dr_drop c s o : (bN c < 128)%N -> dropped s o -> dropped (c :: s) o.

Lemma dropped_refl s : dropped s s.
Proof. induction s; constructor; auto. Qed.

Lemma dropped_app a b c d : dropped a b -> dropped c d -> dropped (a ++ c) (b ++ d).
Proof. intros H K. induction H; simpl; [assumption | now constructor | now constructor]. Qed.

Lemma dropped_all s : Forall (fun c => (bN c < 128)%N) s -> dropped s [].
Proof. induction 1; constructor; auto. Qed.

Lemma separator_ascii d c : separator d c -> (bN c < 128)%N.
Proof. intros [->|[->|[_ ->]]]; reflexivity. Qed.

Lemma dropped_strongest r c :
  Forall (fun c => (bN c < 128)%N) r -> In c r -> dropped r [c].
Proof.
  induction 1 as [|x r Hx F IH]; intros I; [easy|].
  destruct I as [->|I]; [apply dr_keep; now apply dropped_all | apply dr_drop; auto].
Qed.

Lemma wiped_dropped dots s o : wiped dots s o -> dropped s o.
Proof.
  intros (j & b & -> & F & _ & R).
  change o with ([] ++ o). apply dropped_app.
  - apply dropped_all. eapply Forall_impl; [|exact F]. intros c [->|[->| ->]]; reflexivity.
  - induction R as [|c s o Nc H IH|r c s o Nr Fr Ns [Ic _] H IH].
    + constructor.
    + now apply dr_keep.
    + change (c :: o) with ([c] ++ o). apply dropped_app; [|assumption].
      apply dropped_strongest; [|assumption]. eapply Forall_impl; [|exact Fr]. apply separator_ascii.
Qed.

(** Text in complete sequences, each of which the filter leaves alone. *)
Definition fixed_units (us : list str) : Prop :=
  Forall (fun u => exists cp, sequence u cp /\ unicode_text cp u = u) us.

Lemma fixed_settled us : fixed_units us -> settled (concat us).
Proof.
  induction 1 as [|u us (cp & Q & E) _ IH]; [apply settled_nil|].
  simpl. apply settled_app; [|assumption]. now apply (settled_seq u cp).
Qed.

Lemma settled_output_units s o :
  utf8_read unicode_text s o -> exists us, o = concat us /\ fixed_units us.
Proof.
  assert (P : forall x, Forall (fun c => (32 <= bN c < 127)%N) x -> exists us, x = concat us /\ fixed_units us).
  { intros x F. exists (map (fun c => [c]) x). split.
    - clear. induction x; simpl; congruence.
    - unfold fixed_units. apply Forall_forall. intros u I. apply in_map_iff in I. destruct I as (c & <- & I).
      rewrite Forall_forall in F. specialize (F c I). exists (bN c).
      split; [apply ascii_sequence; lia | now apply printable_fixed]. }
  assert (A : forall a b, (exists us, a = concat us /\ fixed_units us) -> (exists us, b = concat us /\ fixed_units us) ->
            exists us, a ++ b = concat us /\ fixed_units us).
  { intros a b (x & -> & X) (y & -> & Y). exists (x ++ y). split; [now rewrite concat_app | now apply Forall_app]. }
  assert (U : exists us, bs "_" = concat us /\ fixed_units us).
  { apply P. repeat constructor; vm_compute; intros; discriminate. }
  induction 1 as [|u cp s o Q H IH|c conts w s o W L F NS H IH|c s o W H IH].
  - exists []. split; [reflexivity | constructor].
  - apply A; [|assumption].
    destruct (unicode_spec cp) as [r|] eqn:E.
    + replace (unicode_text cp u) with r by (unfold unicode_text, table_text; now rewrite E).
      apply unicode_spec_ascii in E. destruct E as [->|(c & -> & L)].
      * exists []. split; [reflexivity | constructor].
      * apply P. repeat constructor; lia.
    + destruct (N.eqb_spec cp 0) as [Z|Z]; [|destruct (N.ltb_spec 0x10FFFF cp) as [G|G]].
      * replace (unicode_text cp u) with (bs "_hidden_null_").
        -- apply P. vm_compute. repeat constructor; intros X; discriminate.
        -- unfold unicode_text, table_text. rewrite E. apply N.eqb_eq in Z. now rewrite Z.
      * replace (unicode_text cp u) with (bs "_"); [assumption|].
        unfold unicode_text, table_text. rewrite E. apply N.eqb_neq in Z. rewrite Z.
        apply N.ltb_lt in G. now rewrite G.
      * assert (T : unicode_text cp u = u).
        { unfold unicode_text, table_text. rewrite E. apply N.eqb_neq in Z. rewrite Z.
          apply N.ltb_ge in G. now rewrite G. }
        rewrite T. exists [u]. simpl. rewrite app_nil_r. split; [reflexivity|].
        constructor; [|constructor]. eauto.
  - apply (A (bs "_") o); assumption.
  - apply (A (bs "_") o); assumption.
Qed.

(** A complete sequence is one 7-bit character or all its bytes are 8-bit. *)
Lemma sequence_shape u cp : sequence u cp ->
  (exists c, u = [c] /\ (bN c < 128)%N) \/ Forall (fun c => (128 <= bN c)%N) u.
Proof.
  intros [c conts w W L F].
  assert (S : forall c, match seq_width c with
     | Some w => if (w =? 1)%nat then (bN c <? 128)%N else (128 <=? bN c)%N | None => true end = true).
  { apply byte_sweep. vm_compute. reflexivity. }
  specialize (S c). rewrite W in S. destruct (Nat.eqb_spec w 1) as [->|Nw].
  - left. exists c. simpl in L. destruct conts; [|discriminate]. split; [reflexivity | now apply N.ltb_lt].
  - right. constructor; [now apply N.leb_le|]. eapply Forall_impl; [|exact F].
    intros d [H _]. exact H.
Qed.

Lemma dropped_high u o : Forall (fun c => (128 <= bN c)%N) u -> dropped u o -> o = u.
Proof.
  intros F D. induction D; [reflexivity| |].
  - inversion F; subst. f_equal. auto.
  - inversion F; subst. lia.
Qed.

Lemma dropped_app_inv a b o : dropped (a ++ b) o -> exists x y, o = x ++ y /\ dropped a x /\ dropped b y.
Proof.
  revert o. induction a as [|c a IH]; intros o D; simpl in D.
  - exists [], o. split; [reflexivity|]. split; [constructor | assumption].
  - inversion D; subst.
    + destruct (IH _ H2) as (x & y & -> & D1 & D2). exists (c :: x), y. split; [reflexivity|].
      split; [now constructor | assumption].
    + destruct (IH _ H3) as (x & y & -> & D1 & D2). exists x, y. split; [reflexivity|].
      split; [now constructor | assumption].
Qed.

Lemma dropped_fixed us o :
  fixed_units us -> dropped (concat us) o -> exists us', o = concat us' /\ fixed_units us'.
Proof.
  intros F. revert o. induction F as [|u us (cp & Q & E) F IH]; intros o D; simpl in D.
  - inversion D; subst. exists []. split; [reflexivity | constructor].
  - apply dropped_app_inv in D. destruct D as (x & y & -> & D1 & D2).
    destruct (IH y D2) as (ys & -> & Fy).
    destruct (sequence_shape u cp Q) as [(c & -> & L)|H].
    + inversion D1; subst.
      * inversion H2; subst. exists ([c] :: ys). split; [reflexivity|]. constructor; eauto.
      * inversion H3; subst. exists ys. auto.
    + apply dropped_high in D1; [|assumption]. subst x. exists (u :: ys). split; [reflexivity|].
      constructor; eauto.
Qed.

Lemma safe_fixed_units us :
  fixed_units us -> exists us', flat_map safe_spec (concat us) = concat us' /\ fixed_units us'.
Proof.
  induction 1 as [|u us (cp & Q & E) F (ys & IH & Fy)]; [exists []; split; [reflexivity | constructor]|].
  simpl. rewrite flat_map_app, IH. destruct (sequence_shape u cp Q) as [(c & -> & L)|H].
  - assert (S : forall c, (if (bN c <? 128)%N then
        forallb (fun d => (32 <=? bN d) && (bN d <? 127))%N (safe_spec c) else true) = true).
    { apply byte_sweep. vm_compute. reflexivity. }
    specialize (S c). apply N.ltb_lt in L. rewrite L in S. rewrite forallb_forall in S.
    exists (map (fun c => [c]) (safe_spec c) ++ ys). split.
    + rewrite concat_app. f_equal. simpl. rewrite app_nil_r. clear.
      induction (safe_spec c); simpl; congruence.
    + apply Forall_app. split; [|assumption]. apply Forall_forall. intros x I. apply in_map_iff in I.
      destruct I as (d & <- & I). specialize (S d I). rewrite andb_true_iff, N.leb_le, N.ltb_lt in S.
      exists (bN d). split; [apply ascii_sequence; lia | now apply printable_fixed].
  - exists (u :: ys). split; [|constructor; eauto]. simpl. f_equal.
    apply flat_map_id. intros c I. apply safe_spec_keep, high_not_difficult.
    rewrite Forall_forall in H. now apply H.
Qed.

(** The utf_8 sequence's result is settled. *)
Lemma utf_8_result_settled s u :
  nonul s -> in_memory s -> clean_utf_8 s (Some load_builtin_unicode_table) = Ok u ->
  settled (wipe (flat_map safe_spec u)).
Proof.
  intros N M E. destruct (builtin_unicode_exact s N M) as (o & R & X & _). rewrite X in E.
  destruct (strlen o <=? strlen s)%N; [|discriminate]. injection E as ->.
  destruct (settled_output_units s u R) as (us & -> & F).
  destruct (safe_fixed_units us F) as (us2 & -> & F2).
  destruct (dropped_fixed us2 (wipe (concat us2)) F2) as (us3 & -> & F3).
  - eapply wiped_dropped, wipe_wiped.
  - now apply fixed_settled.
Qed.

Lemma settled_fixed o : nonul o -> in_memory o -> settled o ->
  clean_utf_8 o (Some load_builtin_unicode_table) = Ok o.
Proof.
  intros N M [_ R]. destruct (builtin_unicode_exact o N M) as (o' & R' & X & _).
  assert (o' = o) by (eapply utf8_read_fun; eauto). subst. now rewrite N.leb_refl in X.
Qed.

(** ** Idempotence *)

Lemma shipped_idempotent pf name seq s o :
  In name [bs "default"; bs "lower"; bs "utf_8"] ->
  (name = bs "lower" -> p_ctype pf = c_locale) -> shipped name seq -> nonul s -> (strlen s < 2 ^ 46)%N ->
  sequence_run_filters pf (Some seq) (Some s) = Ok (Some o) ->
  sequence_run_filters pf (Some seq) (Some o) = Ok (Some o).
Proof.
  intros I CT H N M46 E.
  assert (M : small s).
  { unfold small. change (2 ^ 46)%N with 70368744177664%N in M46. change (2 ^ 50)%N with 1125899906842624%N. lia. }
  assert (SM : forall x, (length x <= 5 * length s)%nat -> small x).
  { intros x L. unfold small, strlen in *. change (2 ^ 46)%N with 70368744177664%N in M46.
    change (2 ^ 50)%N with 1125899906842624%N. lia. }
  destruct I as [<-|[<-|[<-|[]]]].
  - rewrite (run_default pf seq s) in E by assumption. injection E as <-.
    rewrite run_default; auto.
    + rewrite safe_wipe_portable_fixed by apply tail_portable. reflexivity.
    + now apply wipe_nonul, safe_nonul.
    + apply SM. pose proof (wiped_length true _ _ (wipe_wiped (flat_map safe_spec s))).
      pose proof (flat_map_length_le safe_spec 5 s safe_spec_length). lia.
  - rewrite (run_lower pf seq s) in E by auto. injection E as <-.
    rewrite run_lower; auto.
    + rewrite portable_safe by apply lower_portable. rewrite lower_fixed.
      rewrite portable_wiped by apply lower_portable. reflexivity.
    + apply wipe_nonul. intros I. apply in_map_iff in I. destruct I as (c & E & I).
      apply (lower_spec_nonul c); [|assumption]. apply (nonul_not_nul (flat_map safe_spec s)); auto using safe_nonul.
    + apply SM. pose proof (wiped_length true _ _ (wipe_wiped (map lower_spec (flat_map safe_spec s)))) as L.
      rewrite map_length in L. pose proof (flat_map_length_le safe_spec 5 s safe_spec_length). lia.
  - destruct (run_utf_8_inv pf seq s o) as (u & C & Nu & ->); auto.
    pose proof (utf_8_result_settled s u N (small_in_memory s M) C) as St.
    assert (Nw : nonul (wipe (flat_map safe_spec u))) by now apply wipe_nonul, safe_nonul.
    assert (Mw : small (wipe (flat_map safe_spec u))).
    { apply SM. pose proof (wiped_length true _ _ (wipe_wiped (flat_map safe_spec u))).
      pose proof (flat_map_length_le safe_spec 5 u safe_spec_length).
      destruct (builtin_unicode_exact s N (small_in_memory s M)) as (o & _ & X & _). rewrite X in C.
      destruct (N.leb_spec (strlen o) (strlen s)); [|discriminate]. injection C as ->. unfold strlen in *. lia. }
    destruct (run_utf_8_ok pf seq _ (wipe (flat_map safe_spec u)) H Nw Mw) as [R _].
    + apply settled_fixed; auto using small_in_memory.
    + rewrite R. rewrite safe_wipe_portable_fixed by apply tail_portable. reflexivity.
Qed.

(** ** Slashes *)

Lemma in_cstr c s : In c (cstr s) -> In c s.
Proof. destruct (cstr_prefix s) as [b E]. intros I. rewrite E. apply in_app_iff. now left. Qed.

Lemma subst_no_slash t k c d :
  slash_free t -> In d (subst_char t (table_get t k) c) -> d = slash -> c = slash.
Proof.
  intros [T1 T2] I ->. unfold subst_char in I. destruct (table_get t k) eqn:G.
  - exfalso. now apply (T1 k s).
  - destruct (t_default t) as [x|] eqn:D.
    + exfalso. now apply (T2 x).
    + now destruct I as [->|[]].
Qed.

Lemma safe_no_slash sc s t o :
  slash_free t -> clean_safe sc s (Some t) = Ok o -> In slash o -> In slash s.
Proof.
  intros T E I. rewrite clean_safe_eq in E. apply store_inv in E. subst o.
  apply in_cstr, in_flat_map in I. destruct I as (c & Ic & I).
  now rewrite (subst_no_slash t _ c slash T I eq_refl) in Ic.
Qed.

Lemma iso_no_slash s t o :
  slash_free t -> clean_iso8859_1 s (Some t) = Ok o -> In slash o -> In slash s.
Proof.
  intros T E I. rewrite clean_iso8859_1_eq in E. apply store_inv in E. subst o.
  apply in_cstr, in_flat_map in I. destruct I as (c & Ic & I). unfold iso_char in I.
  destruct (bN c <? 128)%N.
  - destruct I as [->|[]]. assumption.
  - now rewrite (subst_no_slash t _ c slash T I eq_refl) in Ic.
Qed.

Lemma read_no_slash t s o :
  slash_free t -> utf8_read (ttext t) s o -> In slash o -> In slash s.
Proof.
  intros [T1 T2]. induction 1 as [|u cp s o Q H IH|c conts w s o W L F NS H IH|c s o W H IH]; intros I.
  - easy.
  - apply in_app_iff in I. apply in_app_iff. destruct I as [I|I]; [|right; auto].
    left. unfold ttext, table_text in I. destruct (table_get t cp) eqn:G; [exfalso; now apply (T1 cp s0)|].
    destruct (cp =? 0)%N; [exfalso; simpl in I; unfold slash in I; intuition discriminate|].
    destruct (0x10FFFF <? cp)%N; [exfalso; simpl in I; unfold slash in I; intuition discriminate|].
    destruct (t_default t) eqn:D; [exfalso; now apply (T2 s0) | assumption].
  - destruct I as [I|I]; [discriminate|]. right. apply in_app_iff. right. auto.
  - destruct I as [I|I]; [discriminate|]. right. auto.
Qed.

Lemma utf_8_no_slash s t o :
  slash_free t -> clean_utf_8 s (Some t) = Ok o -> In slash o -> In slash s.
Proof.
  intros T E I. destruct (clean_utf_8_eq s t) as (x & R & X). rewrite X in E. apply store_inv in E. subst o.
  apply in_cstr in I. eapply read_no_slash; eauto.
Qed.

Lemma store_wipeup s rt o : clean_wipeup s rt = Ok o -> incl o s.
Proof.
  unfold clean_wipeup. cbv zeta. rewrite wipeup_loop_wrs, write_all'. intros E. apply store_inv in E. subst o.
  intros c I. apply in_cstr in I. destruct (wipeup_skip_spec s) as (j & Es & _).
  destruct (wipeup_out_spec rt (wipeup_skip s)) as [R _].
  rewrite Es. apply in_app_iff. right. eapply runs_collapsed_in; [exact R | exact I].
Qed.

Lemma max_length_incl s m o : clean_max_length s m = Ok o -> incl o s.
Proof.
  unfold clean_max_length. cbv zeta. set (M := (if (m <=? 0)%N then 256%N else m)).
  assert (FN : forall n, incl (firstn n s) s).
  { intros n c I. rewrite <- (firstn_skipn n s). apply in_app_iff. now left. }
  destruct (strlen s <=? M)%N; [intros [= <-]; apply incl_refl|].
  pose proof (strrchr_spec s dot) as R. fold dot.
  destruct (strrchr s dot) as [[b a]|]; [|intros [= <-]; apply FN].
  destruct R as (rest & Es & Ea & Nr).
  destruct (strlen a =? 1)%N; [intros [= <-]; apply FN|].
  set (ext := second_ext b a 0 a).
  assert (KE : exists stem, s = stem ++ ext).
  { unfold ext. destruct (second_ext_spec b a 0 a []) as [H|H]; auto; try lia.
    - destruct H as (stem & mid' & -> & E2 & _). exists stem. rewrite Es. exact E2.
    - destruct H as [-> _]. exists (rev b). assumption. }
  destruct KE as (stem & Est).
  destruct (M <=? strlen ext)%N; [intros [= <-]; apply incl_refl|].
  match goal with |- (if ?b then _ else _) = _ -> _ => destruct b end; [|discriminate].
  intros [= <-]. apply incl_app.
  - intros c I. rewrite firstn_firstn in I. now apply FN in I.
  - rewrite Est. apply incl_appr, incl_refl.
Qed.

Lemma lower_no_slash s o : clean_lower c_locale s = Ok o -> In slash o -> In slash s.
Proof.
  unfold clean_lower. cbv zeta. rewrite lower_loop_wrs, write_all'. intros E I. apply store_inv in E. subst o.
  apply in_cstr, in_map_iff in I. destruct I as (c & E & I). rewrite c_locale_lower in E.
  replace c with slash in I; [assumption|].
  assert (S : forall c, (if beq (lower_spec c) slash then beq slash c else true) = true).
  { apply byte_sweep. vm_compute. reflexivity. }
  specialize (S c). rewrite E, beq_refl in S. now apply beq_eq.
Qed.

Lemma filter_no_slash pf f s o :
  adds_no_slash f -> p_ctype pf = c_locale -> filter_run pf f (Some s) = Ok (Some o) ->
  ~ In slash s -> ~ In slash o.
Proof.
  intros A CT E NS I. apply NS. unfold adds_no_slash in A. unfold filter_run in E.
  destruct (f_cleaner f); try contradiction;
  match type of E with bind ?m _ = _ => destruct m eqn:C; simpl in E; try discriminate end;
  injection E as ->.
  - destruct A as (t & Et & T). rewrite Et in C. eapply iso_no_slash; eauto.
  - rewrite CT in C. eapply lower_no_slash; eauto.
  - eapply max_length_incl; eauto.
  - destruct A as (t & Et & T). rewrite Et in C. eapply safe_no_slash; eauto.
  - destruct A as (t & Et & T). rewrite Et in C. eapply utf_8_no_slash; eauto.
  - eapply store_wipeup; eauto.
Qed.

Lemma filters_no_slash pf fs s o :
  Forall adds_no_slash fs -> p_ctype pf = c_locale -> applied pf fs s o ->
  ~ In slash s -> ~ In slash o.
Proof.
  intros F CT A. induction A as [|f fs s m o E A IH]; intros NS; [assumption|].
  inversion F; subst. apply IH; [assumption|]. eapply filter_no_slash; eauto.
Qed.

Lemma builtin_safe_no_slash sc s o :
  clean_safe sc s (Some load_builtin_safe_table) = Ok o -> ~ In slash o.
Proof.
  intros E I. rewrite clean_safe_eq in E. apply store_inv in E. subst o.
  apply in_cstr, in_flat_map in I. destruct I as (c & _ & I).
  destruct (byte_dec c NUL) as [->|N].
  - unfold safe_char in I.
    replace (subst_char load_builtin_safe_table (table_get load_builtin_safe_table (char_key sc NUL)) NUL)
      with [NUL] in I by (destruct sc; vm_compute; reflexivity).
    destruct I as [I|[]]. discriminate.
  - rewrite builtin_safe_char in I by assumption. apply safe_spec_clean in I. apply I.
    apply difficultb_iff. vm_compute. reflexivity.
Qed.

Lemma applied_app_inv pf fs1 fs2 s o :
  applied pf (fs1 ++ fs2) s o -> exists m, applied pf fs1 s m /\ applied pf fs2 m o.
Proof.
  revert s. induction fs1 as [|f fs1 IH]; intros s A; simpl in A.
  - exists s. split; [constructor | assumption].
  - inversion A; subst. destruct (IH _ H4) as (x & A1 & A2). exists x. split; [econstructor; eauto | assumption].
Qed.

Lemma safe_last_no_slash pf fs1 f fs2 s o :
  f_cleaner f = F_safe -> f_table f = Some load_builtin_safe_table ->
  Forall adds_no_slash fs2 -> p_ctype pf = c_locale ->
  applied pf (fs1 ++ f :: fs2) s o -> ~ In slash o.
Proof.
  intros Fc Ft F CT A. apply applied_app_inv in A. destruct A as (m & _ & A).
  inversion A; subst. eapply filters_no_slash; eauto.
  unfold filter_run in H1. rewrite Fc, Ft in H1.
  destruct (clean_safe (p_schar pf) m (Some load_builtin_safe_table)) eqn:C; simpl in H1; try discriminate.
  injection H1 as ->. eapply builtin_safe_no_slash; eauto.
Qed.

(** ** Sequence choice *)

Lemma find_first (n : str) seqs s :
  find (fun x => str_eqb (s_name x) n) seqs = Some s <->
  exists before after, seqs = before ++ s :: after /\ s_name s = n /\ Forall (fun x => s_name x <> n) before.
Proof.
  induction seqs as [|x seqs IH]; simpl.
  - split; [discriminate|]. intros (b & a & E & _). destruct b; discriminate.
  - destruct (str_eqb (s_name x) n) eqn:E.
    + apply str_eqb_eq in E. split.
      * intros [= <-]. exists [], seqs. auto.
      * intros (b & a & Eb & Es & F). destruct b as [|y b]; simpl in Eb; [congruence|].
        injection Eb as <- _. inversion F; subst. contradiction.
    + apply str_eqb_neq in E. rewrite IH. split.
      * intros (b & a & -> & Es & F). exists (x :: b), a. splits; auto.
      * intros (b & a & Eb & Es & F). destruct b as [|y b]; simpl in Eb.
        -- injection Eb as -> _. contradiction.
        -- injection Eb as <- ->. inversion F; subst. exists b, a. auto.
Qed.

Lemma find_nothing (n : str) seqs :
  find (fun x => str_eqb (s_name x) n) seqs = None <-> Forall (fun x => s_name x <> n) seqs.
Proof.
  induction seqs as [|x seqs IH]; simpl.
  - split; auto.
  - destruct (str_eqb (s_name x) n) eqn:E.
    + apply str_eqb_eq in E. split; [discriminate|]. intros F. inversion F; subst. contradiction.
    + apply str_eqb_neq in E. rewrite IH. split; intros F; [now constructor | now inversion F].
Qed.

Lemma choose_by_name seqs name s :
  sequence_choose_default seqs (Some name) = Some s <->
  exists before after, seqs = before ++ s :: after /\ s_name s = name /\
    Forall (fun x => s_name x <> name) before.
Proof.
  rewrite <- find_first. unfold sequence_choose_default.
  destruct (find _ seqs); split; intros H; congruence.
Qed.

Lemma choose_none seqs name :
  sequence_choose_default seqs (Some name) = None <-> Forall (fun x => s_name x <> name) seqs.
Proof.
  rewrite <- find_nothing. unfold sequence_choose_default.
  destruct (find _ seqs); split; intros H; congruence.
Qed.

Lemma choose_default seqs :
  sequence_choose_default seqs None =
  match sequence_choose_default seqs (Some (bs "default")) with
  | Some s => Some s
  | None => hd_error seqs
  end.
Proof. unfold sequence_choose_default. destruct (find _ seqs); [reflexivity|]. now destruct seqs. Qed.

(** ** Table loading *)

Lemma load_builtin_wins datadir parse f b :
  In (f_cleaner f) [F_iso8859_1; F_safe; F_utf_8] -> f_builtin f = Some b ->
  filter_load_table datadir parse f =
  match filter (fun nt => str_eqb b (fst nt))
          [(bs "iso8859_1", load_builtin_iso8859_1_table); (bs "unicode", load_builtin_unicode_table);
           (bs "safe", load_builtin_safe_table); (bs "cp1252", load_builtin_cp1252_table)] with
  | [(_, t)] => Ok (Some t)
  | _ => Exit 1
  end.
Proof.
  intros I E. unfold filter_load_table. rewrite E.
  assert (D : exists n, default_table_name (f_cleaner f) = Some n).
  { simpl in I. destruct I as [<-|[<-|[<-|[]]]]; eexists; reflexivity. }
  destruct D as (n & ->). unfold filter_load_builtin_by_filename. cbn [filter fst].
  destruct (str_eqb b (bs "iso8859_1")) eqn:E1.
  { apply str_eqb_eq in E1. subst b. reflexivity. }
  destruct (str_eqb b (bs "unicode")) eqn:E2.
  { apply str_eqb_eq in E2. subst b. reflexivity. }
  destruct (str_eqb b (bs "safe")) eqn:E3.
  { apply str_eqb_eq in E3. subst b. reflexivity. }
  destruct (str_eqb b (bs "cp1252")); reflexivity.
Qed.

Lemma load_explicit_file datadir parse f file :
  In (f_cleaner f) [F_iso8859_1; F_safe; F_utf_8] -> f_builtin f = None -> f_filename f = Some file ->
  filter_load_table datadir parse f =
  match parse file with Some t => Ok (Some t) | None => Exit 1 end.
Proof.
  intros I E1 E2. unfold filter_load_table. rewrite E1, E2.
  simpl in I. destruct I as [<-|[<-|[<-|[]]]]; reflexivity.
Qed.

Lemma load_search datadir parse f file builtin :
  In (f_cleaner f, file, builtin)
    [(F_iso8859_1, bs "iso8859_1.tbl", load_builtin_iso8859_1_table);
     (F_safe, bs "safe.tbl", load_builtin_safe_table);
     (F_utf_8, bs "unicode.tbl", load_builtin_unicode_table)] ->
  f_builtin f = None -> f_filename f = None ->
  let candidates :=
    filter (fun p => (strlen p <? 256)%N)
      (map (fun d => d ++ file)
        (match datadir with Some d => [d ++ bs "/detox/"] | None => [] end
         ++ [bs "/usr/share/detox/"; bs "/usr/local/share/detox/"])) in
  (exists before p after t, candidates = before ++ p :: after /\ Forall (fun q => parse q = None) before /\
     parse p = Some t /\ filter_load_table datadir parse f = Ok (Some t)) \/
  (Forall (fun q => parse q = None) candidates /\ filter_load_table datadir parse f = Ok (Some builtin)).
Proof.
  intros I E1 E2 candidates.
  assert (FL : filter_load_table datadir parse f =
    match filter_find_table datadir parse file with Some t => Ok (Some t) | None => Ok (Some builtin) end).
  { unfold filter_load_table. rewrite E1, E2. simpl in I.
    destruct I as [I|[I|[I|[]]]];
      pose proof (f_equal (fun x => fst (fst x)) I) as H1; pose proof (f_equal (fun x => snd (fst x)) I) as H2;
      pose proof (f_equal snd I) as H3; cbn [fst snd] in H1, H2, H3; clear I;
      rewrite <- H1, <- H2, <- H3; reflexivity. }
  rewrite FL. clear FL I.
  assert (G : forall l, (exists before p after t,
        filter (fun p => (strlen p <? 256)%N) l = before ++ p :: after /\ Forall (fun q => parse q = None) before /\
        parse p = Some t /\ fold_right (fun p r => match try_table parse p with Some t => Some t | None => r end) None l = Some t) \/
      (Forall (fun q => parse q = None) (filter (fun p => (strlen p <? 256)%N) l) /\
       fold_right (fun p r => match try_table parse p with Some t => Some t | None => r end) None l = None)).
  { induction l as [|p l IH]; cbn [filter fold_right].
    - right. auto.
    - unfold try_table at 1 3. change MAX_PATH_LEN with 256%N.
      destruct (strlen p <? 256)%N.
      + destruct (parse p) as [t|] eqn:P.
        * left. exists [], p, (filter (fun p => (strlen p <? 256)%N) l), t. splits; auto.
        * destruct IH as [(b & q & a & t & -> & F & Q & R)|[F R]].
          -- left. exists (p :: b), q, a, t. splits; auto.
          -- right. splits; auto.
      + exact IH. }
  assert (FF : filter_find_table datadir parse file =
    fold_right (fun p r => match try_table parse p with Some t => Some t | None => r end) None
      (map (fun d => d ++ file)
        (match datadir with Some d => [d ++ bs "/detox/"] | None => [] end
         ++ [bs "/usr/share/detox/"; bs "/usr/local/share/detox/"]))).
  { unfold filter_find_table. destruct datadir as [d|]; cbn [app map fold_right].
    - rewrite <- app_assoc.
      destruct (try_table parse (d ++ bs "/detox/" ++ file)); [reflexivity|].
      destruct (try_table parse (bs "/usr/share/detox/" ++ file)); [reflexivity|].
      now destruct (try_table parse (bs "/usr/local/share/detox/" ++ file)).
    - destruct (try_table parse (bs "/usr/share/detox/" ++ file)); [reflexivity|].
      now destruct (try_table parse (bs "/usr/local/share/detox/" ++ file)). }
  rewrite FF. unfold candidates.
  match goal with |- context [filter _ ?l] => destruct (G l) as [(b & q & a & t & E & F & Q & R)|[F R]] end.
  - left. exists b, q, a, t. rewrite R. splits; auto.
  - right. rewrite R. auto.
Qed.

(** ** A single filter *)

Lemma filter_cleaned pf f s o : nonul s -> in_memory s -> (forall t, f_table f = Some t -> fits t s) ->
  filter_run pf f (Some s) = Ok (Some o) -> cleaned pf f s o.
Proof.
  intros N M F E. unfold filter_run in E. unfold cleaned.
  destruct (f_cleaner f) eqn:C.
  - destruct (f_table f) as [t|]; [|discriminate].
    pose proof (clean_iso8859_1_exact s t (F t eq_refl)) as X. cbv zeta in X. rewrite X in E.
    destruct (_ <=? _)%N; simpl in E; [now injection E as <-|discriminate].
  - intros L. rewrite L, (clean_lower_c s N M) in E. simpl in E. now injection E as <-.
  - destruct (clean_max_length_all s (f_max_length f) M) as (o' & Eo & A & B & _). rewrite Eo in E. simpl in E. injection E as <-.
    unfold shortened. destruct (N.le_gt_cases (strlen s) (if (f_max_length f =? 0)%N then 256 else f_max_length f)) as [L|L]; [auto|].
    right. split; [exact L|]. destruct (B L) as (ext & K & B1 & B2). exists ext. split; [exact K|].
    destruct (N.le_gt_cases (if (f_max_length f =? 0)%N then 256 else f_max_length f) (strlen ext)) as [L'|L']; auto.
  - destruct (f_table f) as [t|]; [|discriminate].
    pose proof (clean_safe_exact (p_schar pf) s t (F t eq_refl)) as X. cbv zeta in X. rewrite X in E.
    destruct (_ <=? _)%N; simpl in E; [now injection E as <-|discriminate].
  - destruct (cgi_reads_total s) as (x & X). rewrite (clean_uncgi_reads s x M X) in E. simpl in E. injection E as <-. eauto.
  - destruct (f_table f) as [t|]; [|discriminate].
    destruct (clean_utf_8_exact s t (F t eq_refl)) as (x & X & Eo). rewrite Eo in E.
    destruct (_ <=? _)%N; simpl in E; [injection E as <-; eauto|discriminate].
  - destruct (clean_wipeup_all s (f_remove_trailing f) N M) as (o' & Eo & W & _). rewrite Eo in E. simpl in E. now injection E as <-.
  - discriminate.
Qed.

(** ** Loading the tables of a sequence *)

Lemma review_filters_each d p fs : forall fs', review_filters d p fs = Ok fs' <-> Forall2 (loaded d p) fs fs'.
Proof.
  induction fs as [|f fs IH]; intros fs'; cbn [review_filters].
  - split; [intros E; injection E as <-; constructor|intros F; inversion F; reflexivity].
  - split.
    + intros E. destruct (filter_load_table d p f) as [t| |] eqn:L; try discriminate. cbn [bind] in E.
      destruct (review_filters d p fs) as [fs2| |]; try discriminate. cbn [bind] in E. injection E as <-.
      constructor; [|apply IH; reflexivity]. exists t. split; [exact L|]. unfold with_table. destruct t; simpl; splits; auto.
    + intros F. inversion F as [|? f' ? fs2 (t & L & A & B & C & D & E & G) F2]; subst. rewrite L. cbn [bind].
      apply IH in F2. rewrite F2. cbn [bind]. f_equal. f_equal. unfold with_table.
      destruct f as [fc ff fb fr fm ft], f' as [fc' ff' fb' fr' fm' ft']; simpl in *. subst.
      destruct t; reflexivity.
Qed.

Lemma sequence_review_each d p s s' : sequence_review d p s = Ok s' <->
  s_name s' = s_name s /\ s_source s' = s_source s /\ Forall2 (loaded d p) (s_filters s) (s_filters s').
Proof.
  unfold sequence_review. rewrite <- review_filters_each. destruct (review_filters d p (s_filters s)) as [fs| |]; cbn [bind].
  - split.
    + intros E. injection E as <-. simpl. auto.
    + intros (A & B & C). injection C as C. destruct s'; simpl in *; congruence.
  - split; [discriminate|]. intros (_ & _ & E). discriminate.
  - split; [discriminate|]. intros (_ & _ & E). discriminate.
Qed.

Lemma review_filters_fails d p fs :
  (forall f, In f fs -> exists t, filter_load_table d p f = Ok t) \/
  ((exists f, In f fs /\ filter_load_table d p f = Exit EXIT_FAILURE) /\ review_filters d p fs = Exit EXIT_FAILURE).
Proof.
  induction fs as [|f fs IH]; [left; intros f []|]. cbn [review_filters].
  assert (L : (exists t, filter_load_table d p f = Ok t) \/ filter_load_table d p f = Exit EXIT_FAILURE).
  { unfold filter_load_table. repeat match goal with |- context [match ?x with _ => _ end] => destruct x end; eauto. }
  destruct L as [(t & L)|L].
  - rewrite L. cbn [bind]. destruct IH as [IH|[(g & I & G) ->]].
    + left. intros g [<-|I]; eauto.
    + right. split; [exists g; split; [now right|exact G]|reflexivity].
  - rewrite L. right. split; [exists f; split; [now left|exact L]|reflexivity].
Qed.

Lemma sequence_review_fails d p s :
  (exists s', sequence_review d p s = Ok s') \/
  ((exists f, In f (s_filters s) /\ filter_load_table d p f = Exit EXIT_FAILURE) /\ sequence_review d p s = Exit EXIT_FAILURE).
Proof.
  unfold sequence_review. destruct (review_filters_fails d p (s_filters s)) as [A|[A B]].
  - left. assert (X : exists fs', review_filters d p (s_filters s) = Ok fs').
    { induction (s_filters s) as [|f fs IH]; cbn [review_filters]; [eauto|].
      destruct (A f (or_introl eq_refl)) as (t & ->). cbn [bind].
      destruct IH as (fs' & ->); [intros g I; apply A; now right|]. cbn [bind]. eauto. }
    destruct X as (fs' & ->). cbn [bind]. eauto.
  - right. rewrite B. auto.
Qed.
