(** * How long cleaned names can be: proofs *)

From Verif Require Import Base BaseFacts Table BuiltinTables CleanString CleanUtf8 CleanSpec Utf8Spec CleanStringProofs CleanUtf8Proofs
  Filter Spoof SequenceSpec SequenceProofs GrowthSpec
  Filelist Prog ProgFacts File FileSpec FileProofs.

Local Open Scope nat_scope.

(** ** Any filter *)

Lemma flat_map_within (f : byte -> str) k s : (forall c, In c s -> length (f c) <= k) -> length (flat_map f s) <= k * length s.
Proof.
  induction s as [|c s IH]; intros H; simpl; [lia|]. rewrite app_length.
  pose proof (H c (or_introl eq_refl)). assert (length (flat_map f s) <= k * length s) by (apply IH; intros; apply H; now right). lia.
Qed.

Lemma subst_within k t key c : 1 <= k -> texts_within k t -> length (subst_char t (table_get t key) c) <= k.
Proof.
  intros K [T1 T2]. unfold subst_char. destruct (table_get t key) eqn:G; [eauto|].
  destruct (t_default t) eqn:D; [eauto|simpl; lia].
Qed.

Lemma read_within k t s o : 13 <= k -> texts_within k t -> utf8_read (ttext t) s o -> length o <= k * length s.
Proof.
  intros K [T1 T2]. induction 1 as [|u cp s o Q H IH|c conts w s o W L F NS H IH|c s o W H IH]; simpl.
  - lia.
  - rewrite !app_length. pose proof (sequence_length u cp Q).
    assert (length (ttext t cp u) <= k * length u); [|lia].
    assert (k <= k * length u) by nia.
    unfold ttext, table_text. destruct (table_get t cp) eqn:G; [pose proof (T1 _ _ G); lia|].
    destruct (cp =? 0)%N; [simpl; lia|]. destruct (0x10FFFF <? cp)%N; [simpl; lia|].
    destruct (t_default t) eqn:D; [pose proof (T2 _ eq_refl); lia|]. nia.
  - rewrite app_length. nia.
  - lia.
Qed.

Lemma wipeup_within s rt o : clean_wipeup s rt = Ok o -> length o <= length s.
Proof.
  unfold clean_wipeup. cbv zeta. rewrite wipeup_loop_wrs, write_all'. intros E. apply store_inv in E. subst o.
  etransitivity; [apply cstr_length|]. destruct (wipeup_skip_spec s) as (j & Es & Fj & St).
  destruct (wipeup_out_spec rt (wipeup_skip s)) as [R _].
  apply (wiped_length rt). exists j, (wipeup_skip s). auto.
Qed.

Lemma uncgi_within s o : clean_uncgi s = Ok o -> length o <= length s.
Proof.
  unfold clean_uncgi. cbv zeta. rewrite uncgi_loop_wrs, write_all'. intros E. apply store_inv in E. subst o.
  etransitivity; [apply cstr_length|]. apply uncgi_out_length.
Qed.

Lemma lower_within ct s o : clean_lower ct s = Ok o -> length o <= length s.
Proof.
  unfold clean_lower. cbv zeta. rewrite lower_loop_wrs, write_all'. intros E. apply store_inv in E. subst o.
  etransitivity; [apply cstr_length|]. now rewrite map_length.
Qed.

Lemma max_length_within s m o : clean_max_length s m = Ok o -> length o <= length s.
Proof.
  unfold clean_max_length. cbv zeta. set (M := (if (m <=? 0)%N then 256%N else m)).
  assert (FN : forall n, length (firstn n s) <= length s) by (intros; rewrite firstn_length; lia).
  destruct (strlen s <=? M)%N eqn:LE; [intros [= <-]; lia|]. apply N.leb_gt in LE.
  destruct (strrchr s dot) as [[b a]|] eqn:R; unfold dot in R; rewrite R; [|intros [= <-]; apply FN].
  destruct (strlen a =? 1)%N; [intros [= <-]; apply FN|].
  set (ext := second_ext b a 0 a).
  destruct (M <=? strlen ext)%N eqn:ME; [intros [= <-]; lia|]. apply N.leb_gt in ME.
  match goal with |- (if ?b then _ else _) = _ -> _ => destruct b end; [|discriminate].
  intros [= <-]. rewrite app_length, firstn_length, firstn_length. unfold strlen in *. lia.
Qed.

Lemma filter_within pf f k s o : grows_by f k -> filter_run pf f (Some s) = Ok (Some o) -> length o <= k * length s.
Proof.
  intros G E. unfold grows_by in G. unfold filter_run in E.
  destruct (f_cleaner f); try contradiction;
  match type of E with bind ?m _ = _ => destruct m eqn:C; simpl in E; try discriminate end;
  injection E as ->.
  - destruct G as (K & t & Et & T). rewrite Et, clean_iso8859_1_eq in C. apply store_inv in C. subst o.
    etransitivity; [apply cstr_length|]. apply flat_map_within. intros c _. unfold iso_char.
    destruct (bN c <? 128)%N; [simpl; lia|]. now apply subst_within.
  - apply lower_within in C. nia.
  - apply max_length_within in C. nia.
  - destruct G as (K & t & Et & T). rewrite Et, clean_safe_eq in C. apply store_inv in C. subst o.
    etransitivity; [apply cstr_length|]. apply flat_map_within. intros c _. now apply subst_within.
  - apply uncgi_within in C. nia.
  - destruct G as (K & t & Et & T). rewrite Et in C. destruct (clean_utf_8_eq s t) as (x & R & X). rewrite X in C. apply store_inv in C. subst o.
    etransitivity; [apply cstr_length|]. eapply read_within; eauto.
  - apply wipeup_within in C. nia.
Qed.

Lemma filters_within pf fs ks s o : Forall2 grows_by fs ks -> applied pf fs s o -> length o <= fold_right Nat.mul 1 ks * length s.
Proof.
  intros F A. revert ks F. induction A as [|f fs s m o E A IH]; intros ks F; inversion F; subst; simpl; [lia|].
  pose proof (filter_within _ _ _ _ _ H1 E). specialize (IH _ H3). nia.
Qed.

(** ** Counting what wipeup leaves *)

Definition sepb (c : byte) : bool := beq c "-" || beq c "_" || beq c ".".

Definition junkb (c : byte) : bool := beq c "-" || beq c "_" || beq c "#".

(** What is left of a string, with or without a separator in front of it *)
Fixpoint kept (prev : bool) (m : str) : nat :=
  match m with
  | [] => 0
  | c :: r => if sepb c then (if prev then 0 else 1) + kept true r else 1 + kept false r
  end.

Fixpoint ends (prev : bool) (m : str) : bool :=
  match m with [] => prev | c :: r => ends (sepb c) r end.

Fixpoint unjunk (m : str) : str :=
  match m with c :: r => if junkb c then unjunk r else m | [] => [] end.

Lemma sepb_iff c : sepb c = true <-> separator true c.
Proof.
  unfold sepb, separator. rewrite !orb_true_iff, !beq_eq. intuition.
Qed.

Lemma sepb_not c : sepb c = false <-> ~ separator true c.
Proof. rewrite <- sepb_iff. destruct (sepb c); intuition congruence. Qed.

Lemma kept_app b x y : kept b (x ++ y) = kept b x + kept (ends b x) y.
Proof. revert b. induction x as [|c x IH]; intros b; simpl; [reflexivity|]. destruct (sepb c); rewrite IH; lia. Qed.

Lemma kept_seps r s : Forall (separator true) r -> kept true (r ++ s) = kept true s.
Proof. induction 1 as [|c r C F IH]; simpl; [reflexivity|]. apply sepb_iff in C. now rewrite C, IH. Qed.

Lemma kept_prev b s : kept true s <= kept b s /\ kept b s <= kept true s + 1.
Proof. destruct s as [|c s]; simpl; [lia|]. destruct (sepb c), b; lia. Qed.

Lemma kept_no_sep s : ~ starts_with (separator true) s -> kept true s = kept false s.
Proof. destruct s as [|c s]; simpl; [reflexivity|]. intros N. apply sepb_not in N. now rewrite N. Qed.

Lemma collapsed_kept s o : runs_collapsed true s o -> length o = kept false s.
Proof.
  induction 1 as [|c s o Nc H IH|r c s o Nr Fr Ns Sr H IH]; simpl; [reflexivity| |].
  - apply sepb_not in Nc. rewrite Nc, IH. lia.
  - destruct r as [|d r]; [easy|]. inversion Fr; subst. simpl. apply sepb_iff in H2. rewrite H2, kept_seps by assumption.
    rewrite kept_no_sep, IH by assumption. lia.
Qed.

Lemma junkb_iff c : junkb c = true <-> leading_junk c.
Proof. unfold junkb, leading_junk. rewrite !orb_true_iff, !beq_eq. tauto. Qed.

Lemma unjunk_app j b : Forall leading_junk j -> ~ starts_with leading_junk b -> unjunk (j ++ b) = b.
Proof.
  induction 1 as [|c j C F IH]; intros N; simpl.
  - destruct b as [|c b]; [reflexivity|]. simpl in *. rewrite <- junkb_iff in N. now destruct (junkb c).
  - apply junkb_iff in C. rewrite C. auto.
Qed.

Lemma wipe_kept s : length (wipe s) = kept false (unjunk s).
Proof.
  destruct (wipe_wiped s) as (j & b & E & F & N & R). rewrite (collapsed_kept _ _ R). f_equal. rewrite E. symmetry. now apply unjunk_app.
Qed.

Lemma unjunk_unjunk x y : unjunk (x ++ y) = match unjunk x with [] => unjunk y | v => v ++ y end.
Proof. induction x as [|c x IH]; simpl; [reflexivity|]. destruct (junkb c); [assumption|reflexivity]. Qed.

(** [u c] adds no more than [k] for the byte [c]. *)
Definition owes (b : bool) (v : str) : nat := kept b v + if ends b v then 0 else 1.

Definition affordable (k : nat) (v : str) : bool :=
  (owes true v <=? k) && (owes false v <=? k + 1) && (match unjunk v with [] => 0 | w => owes false w end <=? k).

Lemma kept_affordable (u : byte -> str) k s : (forall c, affordable k (u c) = true) ->
  kept true (flat_map u s) <= k * length s /\ kept false (flat_map u s) <= k * length s + 1.
Proof.
  intros A. induction s as [|c s [IH1 IH2]]; simpl; [lia|]. rewrite !kept_app.
  pose proof (A c) as H. unfold affordable, owes in H. rewrite !andb_true_iff, !Nat.leb_le in H. destruct H as [[H1 H2] _].
  split; [destruct (ends true (u c))|destruct (ends false (u c))]; lia.
Qed.

Lemma wipe_affordable (u : byte -> str) k s : (forall c, affordable k (u c) = true) -> length (wipe (flat_map u s)) <= k * length s.
Proof.
  intros A. rewrite wipe_kept. induction s as [|c s IH]; simpl; [lia|]. rewrite unjunk_unjunk.
  pose proof (A c) as H. unfold affordable, owes in H. rewrite !andb_true_iff, !Nat.leb_le in H. destruct H as [_ H].
  destruct (unjunk (u c)) as [|x v]; [lia|]. rewrite kept_app.
  destruct (kept_affordable u k s A). destruct (ends false (x :: v)); lia.
Qed.

Lemma flat_map_flat_map (f g : byte -> str) s : flat_map f (flat_map g s) = flat_map (fun c => flat_map f (g c)) s.
Proof. induction s as [|c s IH]; simpl; [reflexivity|]. now rewrite flat_map_app, IH. Qed.

Lemma map_flat_map (f : byte -> byte) (g : byte -> str) s : map f (flat_map g s) = flat_map (fun c => map f (g c)) s.
Proof. induction s as [|c s IH]; simpl; [reflexivity|]. now rewrite map_app, IH. Qed.

Lemma safe_affordable s : length (wipe (flat_map safe_spec s)) <= 4 * length s.
Proof. apply wipe_affordable. apply (byte_sweep (fun c => affordable 4 (safe_spec c))). vm_compute. reflexivity. Qed.

Lemma iso_affordable s : length (wipe (flat_map safe_spec (flat_map iso8859_1_spec s))) <= 4 * length s.
Proof.
  rewrite flat_map_flat_map. apply wipe_affordable.
  apply (byte_sweep (fun c => affordable 4 (flat_map safe_spec (iso8859_1_spec c)))). vm_compute. reflexivity.
Qed.

Lemma legacy_affordable s : length (wipe (flat_map safe_spec (flat_map iso8859_1_spec (flat_map cp1252_spec s)))) <= 5 * length s.
Proof.
  rewrite !flat_map_flat_map. etransitivity; [apply (wiped_length true), wipe_wiped|]. apply flat_map_within. intros c _. apply Nat.leb_le. revert c.
  apply (byte_sweep (fun c => length (flat_map (fun c => flat_map safe_spec (iso8859_1_spec c)) (cp1252_spec c)) <=? 5)). vm_compute. reflexivity.
Qed.

Lemma lower_affordable s : length (wipe (map lower_spec (flat_map safe_spec s))) <= 4 * length s.
Proof.
  rewrite map_flat_map. apply wipe_affordable.
  apply (byte_sweep (fun c => affordable 4 (map lower_spec (safe_spec c)))). vm_compute. reflexivity.
Qed.

(** ** The shipped sequences *)

Lemma shipped_iso8859_1_only seq : shipped (bs "iso8859_1-only") seq ->
  s_filters seq = [table_filter F_iso8859_1 "iso8859_1" load_builtin_iso8859_1_table].
Proof. revert seq. review. Qed.

Lemma shipped_cp1252_only seq : shipped (bs "cp1252-only") seq ->
  s_filters seq = [table_filter F_iso8859_1 "cp1252" load_builtin_cp1252_table].
Proof. revert seq. review. Qed.

Lemma shipped_lower_only seq : shipped (bs "lower-only") seq -> s_filters seq = [filter_init F_lower].
Proof. revert seq. review. Qed.

Lemma utf_8_within s u : nonul s -> in_memory s -> clean_utf_8 s (Some load_builtin_unicode_table) = Ok u -> length u <= length s.
Proof.
  intros N M C. destruct (builtin_unicode_exact s N M) as (o & _ & X & _). rewrite X in C.
  destruct (N.leb_spec (strlen o) (strlen s)); [|discriminate]. injection C as ->. unfold strlen in *. lia.
Qed.

Lemma shipped_within pf name k seq s o :
  In (name, k) shipped_growth -> (name = bs "lower" -> p_ctype pf = c_locale) -> shipped name seq -> nonul s -> (strlen s < 2 ^ 50)%N ->
  sequence_run_filters pf (Some seq) (Some s) = Ok (Some o) -> length o <= k * length s.
Proof.
  intros I CT H N M E. change (small s) in M. unfold shipped_growth in I. cbn [In] in I.
  repeat (destruct I as [I|I]; [injection I as <- <-|]); try contradiction.
  - rewrite (run_default pf seq s) in E by assumption. injection E as <-. apply safe_affordable.
  - rewrite (run_iso8859_1 pf seq s) in E by assumption. injection E as <-. apply iso_affordable.
  - rewrite (run_legacy pf seq s) in E by assumption. injection E as <-. apply legacy_affordable.
  - destruct (run_utf_8_inv pf seq s o) as (u & C & _ & ->); auto.
    pose proof (utf_8_within s u N (small_in_memory s M) C). pose proof (safe_affordable u). lia.
  - rewrite (run_uncgi pf seq s) in E by assumption. injection E as <-.
    pose proof (safe_affordable (cstr (uncgi_out s))). pose proof (cstr_length (uncgi_out s)). pose proof (uncgi_out_length s). lia.
  - rewrite (run_lower pf seq s) in E by auto. injection E as <-. apply lower_affordable.
  - rewrite sequence_run, (shipped_iso8859_1_only seq H) in E.
    rewrite (run_iso _ _ _ _ _ _ (builtin_iso8859_1_eq s N (small_in_memory s M))) in E. injection E as <-.
    apply flat_map_within. intros c _. apply iso_spec_length.
  - rewrite sequence_run, (shipped_cp1252_only seq H) in E.
    rewrite (run_iso _ _ _ _ _ _ (builtin_cp1252_eq s N (small_in_memory s M))) in E. injection E as <-.
    apply flat_map_within. intros c _. apply cp1252_spec_length.
  - rewrite sequence_run, (shipped_utf_8_only seq H) in E. cbn [run_filters] in E.
    unfold filter_run in E. cbn [f_cleaner table_filter f_table] in E.
    destruct (clean_utf_8 s (Some load_builtin_unicode_table)) as [u| |] eqn:C; try discriminate. cbn in E. injection E as <-.
    pose proof (utf_8_within s u N (small_in_memory s M) C). lia.
  - rewrite sequence_run, (shipped_uncgi_only seq H) in E. cbn [run_filters] in E.
    destruct (filter_run pf (filter_init F_uncgi) (Some s)) as [m| |] eqn:C; try discriminate. cbn in E. destruct m; try discriminate. injection E as ->.
    apply (filter_within pf (filter_init F_uncgi) 1); [|assumption]. cbn. lia.
  - rewrite sequence_run, (shipped_lower_only seq H) in E. cbn [run_filters] in E.
    destruct (filter_run pf (filter_init F_lower) (Some s)) as [m| |] eqn:C; try discriminate. cbn in E. destruct m; try discriminate. injection E as ->.
    apply (filter_within pf (filter_init F_lower) 1); [|assumption]. cbn. lia.
Qed.

(** ** They are that long *)

Lemma repeat_flat_map (f : byte -> str) c n : flat_map f (repeat c n) = concat (repeat (f c) n).
Proof. induction n as [|n IH]; simpl; [reflexivity|]. now rewrite IH. Qed.

Lemma wipe_attained (u : byte -> str) c k n : owes true (u c) = k -> ends true (u c) = true -> (exists j v, u c = j :: v /\ junkb j = true /\ unjunk v = v /\ v <> [] /\ kept false v = k /\ ends false v = true) ->
  length (wipe (flat_map u (repeat c n))) = k * n.
Proof.
  intros O E (j & v & U & J & V & Nv & K & Ev). rewrite wipe_kept.
  assert (T : forall m, kept true (flat_map u (repeat c m)) = k * m).
  { induction m as [|m IH]; simpl; [lia|]. rewrite kept_app, E, IH. unfold owes in O. rewrite E in O. lia. }
  destruct n as [|n]; simpl; [lia|]. rewrite unjunk_unjunk, U. cbn [unjunk]. rewrite J, V.
  destruct v as [|x v]; [easy|]. rewrite kept_app, Ev, K, T. lia.
Qed.

Lemma ampersands n : length (wipe (flat_map safe_spec (repeat "&"%byte n))) = 4 * n.
Proof. apply wipe_attained; [reflexivity|reflexivity|]. exists "_"%byte, (bs "and_"). splits; try reflexivity. discriminate. Qed.

Lemma repeat_nonul c n : c <> NUL -> nonul (repeat c n).
Proof. intros C I. apply repeat_spec in I. congruence. Qed.

Lemma wipe_attained2 (u : byte -> str) c k n : kept false (u c) = k -> ends false (u c) = false -> unjunk (u c) = u c -> u c <> [] ->
  length (wipe (flat_map u (repeat c n))) = k * n.
Proof.
  intros K E U Nv. rewrite wipe_kept.
  assert (T : forall m, kept false (flat_map u (repeat c m)) = k * m).
  { induction m as [|m IH]; simpl; [lia|]. rewrite kept_app, E, IH. lia. }
  destruct n as [|n]; [simpl; lia|]. rewrite <- (T (S n)). f_equal. simpl. rewrite unjunk_unjunk, U. now destruct (u c).
Qed.

Lemma flat_map_repeat (u : byte -> str) c n : length (flat_map u (repeat c n)) = length (u c) * n.
Proof. induction n as [|n IH]; simpl; [lia|]. rewrite app_length, IH. lia. Qed.

Lemma flat_map_same (u : byte -> str) c n : u c = [c] -> flat_map u (repeat c n) = repeat c n.
Proof. intros U. induction n as [|n IH]; simpl; [reflexivity|]. now rewrite U, IH. Qed.

Lemma ampersands_read n : utf8_read unicode_text (repeat "&"%byte n) (repeat "&"%byte n).
Proof.
  induction n as [|n IH]; [constructor|].
  apply (ur_seq unicode_text ["&"%byte] 38 (repeat "&"%byte n) (repeat "&"%byte n)); [|assumption].
  apply (sequence_intro "&"%byte [] 1); auto.
Qed.

Lemma ampersands_utf_8 n : (N.of_nat n < 2 ^ 50)%N -> clean_utf_8 (repeat "&"%byte n) (Some load_builtin_unicode_table) = Ok (repeat "&"%byte n).
Proof.
  intros M. assert (S : small (repeat "&"%byte n)) by (unfold small, strlen; now rewrite repeat_length).
  destruct (builtin_unicode_exact (repeat "&"%byte n)) as (o & R & X & _); [now apply repeat_nonul|now apply small_in_memory|].
  assert (o = repeat "&"%byte n) by (eapply utf8_read_fun; eauto using ampersands_read). subst o. now rewrite N.leb_refl in X.
Qed.

Lemma ampersands_uncgi n : uncgi_out (repeat "&"%byte n) = repeat "&"%byte n.
Proof.
  induction n as [|n IH]; [reflexivity|]. simpl repeat. rewrite uncgi_out_cons. destruct (repeat "&"%byte n) as [|h [|l r]]; cbn -[uncgi_out]; now rewrite IH.
Qed.

Lemma ampersands_lower n : map lower_spec (repeat "&"%byte n) = repeat "&"%byte n.
Proof. induction n as [|n IH]; [reflexivity|]. cbn [repeat map]. rewrite IH. reflexivity. Qed.

Lemma shipped_attained pf name k seq n :
  In (name, k) shipped_growth -> (In name [bs "lower"; bs "lower-only"] -> p_ctype pf = c_locale) -> shipped name seq -> (N.of_nat n < 2 ^ 50)%N ->
  exists s o, nonul s /\ length s = n /\ sequence_run_filters pf (Some seq) (Some s) = Ok (Some o) /\ length o = k * n.
Proof.
  intros I CT H M.
  assert (Sm : forall c, small (repeat c n)) by (intros; unfold small, strlen; now rewrite repeat_length).
  assert (NA : nonul (repeat "&"%byte n)) by now apply repeat_nonul.
  unfold shipped_growth in I. cbn [In] in I.
  repeat (destruct I as [I|I]; [injection I as <- <-|]); try contradiction.
  - exists (repeat "&"%byte n). eexists. splits; [auto|apply repeat_length|now apply run_default|apply ampersands].
  - exists (repeat "&"%byte n). eexists. splits; [auto|apply repeat_length|now apply run_iso8859_1|].
    rewrite flat_map_same by reflexivity. apply ampersands.
  - exists (repeat x80 n). eexists. splits; [now apply repeat_nonul|apply repeat_length|apply run_legacy; auto; now apply repeat_nonul|].
    rewrite !flat_map_flat_map. apply wipe_attained2; try (vm_compute; reflexivity). vm_compute. discriminate.
  - exists (repeat "&"%byte n). eexists. splits; [auto|apply repeat_length|apply run_utf_8_ok; auto using ampersands_utf_8|apply ampersands].
  - exists (repeat "&"%byte n). eexists. splits; [auto|apply repeat_length|now apply run_uncgi|].
    rewrite ampersands_uncgi, cstr_nonul by assumption. apply ampersands.
  - exists (repeat "&"%byte n). eexists. splits; [auto|apply repeat_length|apply run_lower; auto; apply CT; cbn; auto|].
    rewrite map_flat_map. apply wipe_attained; [reflexivity|reflexivity|]. exists "_"%byte, (bs "and_"). splits; try reflexivity. discriminate.
  - exists (repeat xe9 n). assert (Ne : nonul (repeat xe9 n)) by now apply repeat_nonul. eexists.
    splits; [auto|apply repeat_length| |].
    + rewrite sequence_run, (shipped_iso8859_1_only seq H).
      rewrite (run_iso _ _ _ _ _ _ (builtin_iso8859_1_eq _ Ne (small_in_memory _ (Sm xe9)))). reflexivity.
    + now rewrite flat_map_repeat.
  - exists (repeat x80 n). assert (Ne : nonul (repeat x80 n)) by now apply repeat_nonul. eexists.
    splits; [auto|apply repeat_length| |].
    + rewrite sequence_run, (shipped_cp1252_only seq H).
      rewrite (run_iso _ _ _ _ _ _ (builtin_cp1252_eq _ Ne (small_in_memory _ (Sm x80)))). reflexivity.
    + now rewrite flat_map_repeat.
  - exists (repeat "&"%byte n), (repeat "&"%byte n). splits; [auto|apply repeat_length| |rewrite repeat_length; lia].
    rewrite sequence_run, (shipped_utf_8_only seq H). cbn [run_filters].
    unfold filter_run. cbn [f_cleaner table_filter f_table]. now rewrite ampersands_utf_8.
  - exists (repeat "&"%byte n), (repeat "&"%byte n). splits; [auto|apply repeat_length| |rewrite repeat_length; lia].
    rewrite sequence_run, (shipped_uncgi_only seq H). cbn [run_filters].
    unfold filter_run. cbn [f_cleaner filter_init]. rewrite clean_uncgi_eq by now apply small_in_memory.
    now rewrite ampersands_uncgi, cstr_nonul.
  - exists (repeat "&"%byte n), (repeat "&"%byte n). splits; [auto|apply repeat_length| |rewrite repeat_length; lia].
    rewrite sequence_run, (shipped_lower_only seq H). cbn [run_filters].
    unfold filter_run. cbn [f_cleaner filter_init]. rewrite CT by (cbn; auto). rewrite clean_lower_c by auto using small_in_memory.
    now rewrite ampersands_lower.
Qed.

(** ** Renames *)

Lemma renames_within fuel o files ign tr old new next name k seq :
  In (name, k) shipped_growth -> (name = bs "lower" -> p_ctype (o_platform o) = c_locale) -> shipped name seq -> o_sequence_to_use o = Some seq ->
  trace_of (process_arguments fuel o files ign) tr (Call (Rename old new) next) -> nonul old -> (strlen old < 2 ^ 50)%N ->
  exists dir base clean, last_component old dir base /\ new = dir ++ clean /\ length clean <= k * length base.
Proof.
  intros I CT H Eo T No Mo. assert (P : proper_rename o old new) by now apply renames_proper in T.
  destruct P as (dir & base & clean & L & En & _ & _ & _ & _ & R).
  exists dir, base, clean. splits; auto. destruct L as (-> & _ & _). rewrite Eo in R.
  eapply shipped_within; eauto.
  - intros X. apply No, in_app_iff. now right.
  - unfold strlen in *. rewrite app_length in Mo. lia.
Qed.

Lemma sequence_within pf seq ks s o : Forall2 grows_by (s_filters seq) ks ->
  sequence_run_filters pf (Some seq) (Some s) = Ok (Some o) -> length o <= fold_right Nat.mul 1 ks * length s.
Proof. intros F E. rewrite sequence_run in E. apply applied_iff in E. eapply filters_within; eauto. Qed.
