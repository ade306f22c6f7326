(** * What the filters complain about: proofs *)

From Verif Require Import Base BaseFacts Stdio Table BuiltinTables CleanString CleanUtf8 CleanSpec Utf8Spec CleanStringProofs CleanUtf8Proofs
  Filter SequenceSpec SequenceProofs Prog ParseTableSpec EscapeSpec EscapeProofs Warnings WarningsProofs WarningsSpec.

Local Opaque load_builtin_safe_table load_builtin_iso8859_1_table load_builtin_cp1252_table load_builtin_unicode_table.

(** ** The utf_8 filter *)

Lemma value_bound c conts w : seq_width c = Some w -> length conts = (w - 1)%nat -> Forall continuation conts ->
  (seq_value c conts < 2 ^ 31)%N.
Proof.
  intros W L F. destruct (width_facts c w W) as (_ & _ & B & _). rewrite seq_value_fold, <- L in *. clear W L w.
  revert B. generalize (start_value c) as v. induction F as [|d conts Hd F IH]; intros v B.
  - cbn [length fold_left] in *. change (64 ^ N.of_nat 0)%N with 1%N in B. lia.
  - cbn [fold_left]. apply IH. cbn [length] in B. rewrite Nat2N.inj_succ, N.pow_succ_r' in B.
    unfold add_cont. unfold continuation in Hd.
    assert (P : (0 < 64 ^ N.of_nat (length conts))%N) by (apply N.neq_0_lt_0, N.pow_nonzero; lia). nia.
Qed.

Lemma hex_eight n : (n < 2 ^ 31)%N -> eight_digits n (hex_upper 8 n).
Proof.
  intros L. unfold eight_digits. splits.
  - apply hex_upper_digits.
  - apply hex_upper_case.
  - apply hex_upper_length; [lia|]. change (16 ^ N.of_nat 8)%N with 4294967296%N. change (2 ^ 31)%N with 2147483648%N in L. lia.
Qed.

Lemma value_says t v : (v < 2 ^ 31)%N ->
  exists w, value_remark (table_get t) v w /\ fst (utf_8_value_says t v) = map as_line w.
Proof.
  intros L. unfold utf_8_value_says. destruct (table_get t v) as [r|] eqn:E.
  - exists []. split; [eapply vr_entry; eauto|reflexivity].
  - destruct (N.eqb_spec v 0) as [Z|Z].
    + eexists. split; [apply vr_nul; auto|reflexivity].
    + change UNICODE_MAX_VALUE with 0x10FFFF%N. destruct (N.ltb_spec 0x10FFFF v) as [G|G].
      * eexists. split; [apply vr_large; [exact E|exact G|now apply hex_eight]|reflexivity].
      * exists []. split; [apply vr_fine; auto; lia|reflexivity].
Qed.

(** The messages are those of the name, or the first of them if the buffer is overrun. *)
Lemma loop_says t cap : forall fuel s, (length s <= fuel)%nat -> exists l, utf8_remarks (table_get t) s l /\
  forall acc, exists n, fst (utf_8_loop_says fuel cap t s acc) = map as_line (firstn n l) /\
    (forall a, snd (utf_8_loop_says fuel cap t s acc) = Ok a -> firstn n l = l).
Proof.
  induction fuel as [|fuel IH]; intros [|c s] L; simpl in L; try lia.
  - exists []. split; [constructor|]. intros acc. exists O. auto.
  - exists []. split; [constructor|]. intros acc. exists O. auto.
  - cbn [utf_8_loop_says]. rewrite width_spec. destruct (seq_width c) as [w|] eqn:W.
    + pose proof (width_facts c w W) as (U & Bw & Bv & _). rewrite U.
      pose proof (cont_loop_spec (w - 1) (start_value c) s [] Bv) as C.
      destruct (utf_8_cont_loop (w - 1) (start_value c) s []) as [[[v e] r]|r].
      * destruct C as (conts & -> & Lc & Fc & -> & ->). cbn [rev app]. rewrite <- (seq_value_fold c conts).
        assert (Sq : sequence (c :: conts) (seq_value c conts)) by (econstructor; eauto).
        destruct (IH r) as (l & R & E). { rewrite app_length in L. lia. }
        destruct (value_says t (seq_value c conts)) as (x & V & X); [eapply value_bound; eauto|].
        exists (x ++ l). split; [apply (um_seq _ (c :: conts) (seq_value c conts)); assumption|].
        intros acc. rewrite talk_texts, talk_result, value_says_ok, X. cbn [bind]. rewrite talk_texts, talk_result. cbn [quietly fst snd app].
        destruct (wrs cap acc _) as [a|u|z]; cbn [bind].
        -- destruct (E a) as (n & -> & O). exists (length x + n)%nat. rewrite firstn_app_2, map_app. split; [reflexivity|].
           intros b Hb. f_equal. eauto.
        -- exists (length x). rewrite firstn_app, Nat.sub_diag, firstn_O, firstn_all, app_nil_r, app_nil_r. split; [reflexivity|discriminate].
        -- exists (length x). rewrite firstn_app, Nat.sub_diag, firstn_O, firstn_all, app_nil_r, app_nil_r. split; [reflexivity|discriminate].
      * destruct C as (conts & -> & Lc & Fc & NS).
        destruct (IH r) as (l & R & E). { rewrite app_length in L. lia. }
        exists ((match r with
                 | [] => bs "detox: warning: UTF-8 sequence ended unexpectedly (null)"
                 | _ => bs "detox: warning: UTF-8 sequence ended unexpectedly (missing con't)"
                 end) :: l). split.
        -- destruct r as [|d r].
           ++ assert (l = []) as -> by (inversion R as [|u cp s0 w0 l0 Q| | |]; subst; auto; destruct Q; discriminate).
              rewrite app_nil_r. eapply um_ended; eauto.
           ++ eapply um_cut; eauto.
        -- intros acc. rewrite talk_texts, talk_result. cbn [complain say fst snd bind]. rewrite talk_texts, talk_result. cbn [quietly fst snd app].
           destruct (wr cap acc _) as [a|u|z]; cbn [bind].
           ++ destruct (E a) as (n & -> & O). exists (S n). cbn [firstn map]. split; [destruct r; reflexivity|]. intros b Hb. f_equal. eauto.
           ++ exists 1%nat. cbn [firstn map]. split; [destruct r; reflexivity|discriminate].
           ++ exists 1%nat. cbn [firstn map]. split; [destruct r; reflexivity|discriminate].
    + destruct (IH s) as (l & R & E); [lia|].
      eexists. split; [apply um_bad; eauto|].
      intros acc. rewrite talk_texts, talk_result. cbn [complain say fst snd bind]. rewrite talk_texts, talk_result. cbn [quietly fst snd app].
      destruct (wr cap acc _) as [a|u|z]; cbn [bind].
      * destruct (E a) as (n & -> & O). exists (S n). cbn [firstn map]. split; [reflexivity|]. intros b Hb. f_equal. eauto.
      * exists 1%nat. split; [reflexivity|discriminate].
      * exists 1%nat. split; [reflexivity|discriminate].
Qed.

Lemma utf_8_says s t o : clean_utf_8 s (Some t) = Ok o ->
  exists l, utf8_remarks (table_get t) s l /\ fst (clean_utf_8_says s (Some t)) = map as_line l.
Proof.
  intros E. destruct (loop_says t (table_cap t s) (length s) s (le_n _)) as (l & R & H). exists l. split; auto.
  destruct (H []) as (n & X & O). unfold clean_utf_8_says. cbv zeta. rewrite talk_texts, X.
  rewrite <- utf_8_result in E. unfold clean_utf_8_says in E. cbv zeta in E. rewrite talk_result in E.
  destruct (snd (utf_8_loop_says (length s) (table_cap t s) t s [])) as [a|u|z]; try discriminate.
  cbn [quietly fst]. rewrite app_nil_r. f_equal. eauto.
Qed.

(** ** The max_length filter *)

Lemma max_length_says s m : exists l, length_remarks (eff_max m) s l /\ fst (clean_max_length_says s m) = map as_line l.
Proof.
  unfold clean_max_length_says.
  assert (Em : (if m <=? 0 then 256 else m)%N = eff_max m).
  { unfold eff_max. destruct (N.leb_spec m 0), (N.eqb_spec m 0); lia. }
  rewrite Em. cbv zeta. set (M := eff_max m) in *.
  assert (M1 : (0 < M)%N). { unfold M, eff_max. destruct (N.eqb_spec m 0); lia. }
  destruct (N.leb_spec (strlen s) M) as [L|L]; [exists []; split; [now apply lm_short|reflexivity]|].
  pose proof (strrchr_spec s dot) as R. unfold dot in R at 1. destruct (strrchr s "."%byte) as [[b a]|].
  2:{ exists []. split; [|reflexivity]. apply lm_cut with []; auto. now apply ke_none. }
  destruct R as (rest & Es & Ea & Nr).
  assert (LD : last_dot_suffix s (rev b) a) by (split; [assumption | exists rest; auto]).
  destruct (N.eqb_spec (strlen a) 1) as [L1|L1].
  { assert (rest = []). { subst a. unfold strlen in L1. simpl in L1. destruct rest; [reflexivity | simpl in L1; lia]. }
    subst rest a. exists []. split; [|reflexivity]. apply lm_cut with []; auto. eapply ke_trailing; eauto. }
  assert (Na : a <> [dot]). { intros ->. now apply L1. }
  set (ext := second_ext b a 0 a).
  assert (KE : kept_extension s ext).
  { unfold ext. destruct (second_ext_spec b a 0 a []) as [H|H]; auto; try lia.
    - destruct H as (stem & mid' & -> & E2 & E3 & N1 & N2 & N3).
      rewrite app_nil_r in E3. apply (ke_double s stem mid' a); auto. now rewrite <- E3.
    - destruct H as [-> H]. apply (ke_single s (rev b) a); auto. intros stem' mid E. apply H. now rewrite app_nil_r. }
  destruct (N.leb_spec M (strlen ext)) as [Lx|Lx].
  - eexists. split; [eapply lm_gives_up; eauto|reflexivity].
  - exists []. split; [eapply lm_cut; eauto|reflexivity].
Qed.

(** ** Filters and sequences *)

Lemma filter_says pf f s m : filter_run pf f (Some s) = Ok m ->
  exists l, filter_remarks f s l /\ fst (filter_run_says pf f (Some s)) = map as_line l.
Proof.
  intros E. unfold filter_run_says. cbv zeta. unfold filter_remarks. unfold filter_run in E.
  destruct (f_cleaner f); try discriminate; rewrite ?talk_texts.
  - exists []. split; auto. destruct (f_table f); [|discriminate]. cbn [clean_iso8859_1_says quietly fst snd]. now destruct (clean_iso8859_1 _ _).
  - exists []. split; auto. cbn [quietly fst snd]. now destruct (clean_lower _ _).
  - destruct (max_length_says s (f_max_length f)) as (l & R & X). exists l. split; auto. rewrite X.
    destruct (snd (clean_max_length_says s (f_max_length f))); apply app_nil_r.
  - exists []. split; auto. destruct (f_table f); [|discriminate]. cbn [clean_safe_says quietly fst snd]. now destruct (clean_safe _ _ _).
  - exists []. split; auto. cbn [quietly fst snd]. now destruct (clean_uncgi _).
  - destruct (f_table f) as [t|]; [|discriminate]. destruct (clean_utf_8 s (Some t)) as [o|u|z] eqn:C; try discriminate.
    destruct (utf_8_says s t o C) as (l & R & X). exists l. split; auto. rewrite X.
    destruct (snd (clean_utf_8_says s (Some t))); apply app_nil_r.
  - exists []. split; auto. cbn [quietly fst snd]. now destruct (clean_wipeup _ _).
Qed.

Lemma filters_say pf : forall fs s o, run_filters pf fs (Some s) = Ok o ->
  exists l, sequence_remarks pf fs s l /\ fst (run_filters_says pf fs (Some s)) = map as_line l.
Proof.
  induction fs as [|f fs IH]; intros s o E.
  - exists []. split; [constructor|reflexivity].
  - cbn [run_filters] in E. destruct (filter_run pf f (Some s)) as [m|u|z] eqn:F; try discriminate. cbn [bind] in E.
    destruct (filter_run_some _ _ _ _ F) as [x ->].
    destruct (filter_says _ _ _ _ F) as (l1 & R1 & X1). destruct (IH x o E) as (l2 & R2 & X2).
    exists (l1 ++ l2). split; [econstructor; eauto|]. cbn [run_filters_says].
    rewrite talk_texts, filter_result, F, X1, X2, map_app. reflexivity.
Qed.

Lemma sequence_says pf seq s o : sequence_run_filters pf (Some seq) (Some s) = Ok o ->
  exists l, sequence_remarks pf (s_filters seq) s l /\ fst (sequence_run_says pf (Some seq) (Some s)) = map as_line l.
Proof. apply filters_say. Qed.

Lemma utf8_remarks_nil e l : utf8_remarks e [] l -> l = [].
Proof.
  intros H. remember (@nil byte) as z eqn:Ez in H. destruct H as [|u cp s w l Q| | |]; try discriminate; [reflexivity|]. destruct Q; discriminate.
Qed.

Lemma utf8_remarks_seq e u cp s l : sequence u cp -> utf8_remarks e (u ++ s) l ->
  exists w l', l = w ++ l' /\ value_remark e cp w /\ utf8_remarks e s l'.
Proof.
  intros [c conts w W L F] H. remember ((c :: conts) ++ s) as z eqn:Ez in H. simpl in Ez.
  destruct H as [|u' cp' s' w' l' Q' V' H'|c' conts' w' W' L' F'|c' conts' w' d' s' l' W' L' F' D' H'|c' s' l' W' H'].
  - discriminate.
  - destruct Q' as [c' conts' w2 W' Lc' Fc']. simpl in Ez. injection Ez as -> Ez. rewrite W in W'. injection W' as <-.
    symmetry in Ez. apply split_conts in Ez; auto; [|left; lia]. destruct Ez as [-> ->]. eauto.
  - injection Ez as -> Ez. rewrite W in W'. injection W' as <-. exfalso. subst conts'. rewrite app_length in L'. lia.
  - injection Ez as -> Ez. rewrite W in W'. injection W' as <-. exfalso. apply D'.
    apply (cut_vs_complete _ _ _ _ Ez F' F). lia.
  - injection Ez as -> _. congruence.
Qed.

(** ** Silence *)

Lemma quiet_tail pf s l : sequence_remarks pf [safe_filter; wipeup_filter] s l -> l = [].
Proof.
  intros H. inversion H as [|f fs x m l1 l2 F R T]; subst. cbn in F. subst l1.
  inversion T as [|f' fs' x' m' l1' l2' F' R' T']; subst. cbn in F'. subst l1'. now inversion T'.
Qed.

Lemma remarks_cons_quiet pf f fs s l : (forall l', filter_remarks f s l' -> l' = []) ->
  (forall m l', sequence_remarks pf fs m l' -> l' = []) -> sequence_remarks pf (f :: fs) s l -> l = [].
Proof. intros A B H. inversion H as [|f0 fs0 s0 m l1 l2 F R T]; subst. rewrite (A _ F). exact (B _ _ T). Qed.

Lemma shipped_quiet pf name seq s l :
  In name [bs "default"; bs "lower"; bs "iso8859_1"; bs "iso8859_1-legacy"; bs "uncgi"; bs "uncgi-only"] -> shipped name seq ->
  sequence_remarks pf (s_filters seq) s l -> l = [].
Proof.
  assert (Q : forall fs, Forall (fun f => ~ In (f_cleaner f) [F_utf_8; F_max_length]) fs -> forall s l, sequence_remarks pf fs s l -> l = []).
  { induction 1 as [|f fs Hf F IH]; intros x l' H; [now inversion H|]. revert H. apply remarks_cons_quiet; auto.
    intros l2 R. unfold filter_remarks in R. destruct (f_cleaner f); auto; exfalso; apply Hf; simpl; auto. }
  intros I H. apply Q. clear Q. simpl in I.
  destruct I as [<-|[<-|[<-|[<-|[<-|[<-|[]]]]]]].
  - rewrite (shipped_default _ H). repeat constructor; simpl; intuition discriminate.
  - rewrite (shipped_lower _ H). repeat constructor; simpl; intuition discriminate.
  - rewrite (shipped_iso8859_1 _ H). repeat constructor; simpl; intuition discriminate.
  - rewrite (shipped_legacy _ H). repeat constructor; simpl; intuition discriminate.
  - rewrite (shipped_uncgi _ H). repeat constructor; simpl; intuition discriminate.
  - rewrite (shipped_uncgi_only _ H). repeat constructor; simpl; intuition discriminate.
Qed.

Lemma units_quiet e us l : Forall (fun u => exists cp, sequence u cp /\ (e cp <> None \/ (0 < cp <= 0x10FFFF)%N)) us ->
  utf8_remarks e (concat us) l -> l = [].
Proof.
  intros F. revert l. induction F as [|u us (cp & Q & V) F IH]; intros l H; [now apply utf8_remarks_nil in H|].
  simpl in H. apply (utf8_remarks_seq _ _ _ _ _ Q) in H. destruct H as (w & l' & -> & X & H). rewrite (IH _ H), app_nil_r.
  destruct X as [r E|E Z|ds E G D|E G]; auto; exfalso; destruct V as [V|V]; auto; lia.
Qed.

Lemma valid_quiet e s l : valid_utf8 s -> nonul s -> utf8_remarks e s l -> l = [].
Proof.
  intros (cps & F & ->) N. rewrite flat_map_concat_map. apply units_quiet. apply Forall_forall. intros u I.
  apply in_map_iff in I. destruct I as (cp & <- & I). rewrite Forall_forall in F. specialize (F cp I). exists cp.
  split; [apply encode_sequence; now apply scalar_bound|]. right. split.
  - destruct (N.eq_dec cp 0) as [->|]; [|lia]. exfalso. apply N. apply in_flat_map. exists 0%N. split; auto. vm_compute. auto.
  - unfold scalar in F. lia.
Qed.

Lemma fixed_quiet us l : fixed_units us -> utf8_remarks unicode_spec (concat us) l -> l = [].
Proof.
  intros F. apply units_quiet. eapply Forall_impl; [|exact F]. intros u (cp & Q & E). exists cp. split; auto.
  unfold unicode_text, table_text in E. destruct (unicode_spec cp) as [r|] eqn:G; [left; discriminate|right].
  destruct (N.eqb_spec cp 0) as [Z|Z].
  - exfalso. subst cp. destruct (sequence_shape _ _ Q) as [(c & -> & L)|H]; [discriminate|].
    rewrite <- E in H. inversion H as [|x y A B]. vm_compute in A. apply A. reflexivity.
  - destruct (N.ltb_spec 0x10FFFF cp) as [X|X]; [|lia]. exfalso. subst u. inversion Q as [c conts w W L F' E1 E2].
    subst cp. vm_compute in X. discriminate.
Qed.

(** What the utf_8 sequence has made of a name is not complained about. *)
Lemma cleaned_quiet pf seq s o l :
  shipped (bs "utf_8") seq -> nonul s -> small s -> sequence_run_filters pf (Some seq) (Some s) = Ok (Some o) ->
  sequence_remarks pf (s_filters seq) o l -> l = [].
Proof.
  intros H N M E. destruct (run_utf_8_inv pf seq s o H N M E) as (u & C & Nu & ->).
  destruct (builtin_unicode_exact s N (small_in_memory s M)) as (x & R & X & _). rewrite X in C.
  destruct (strlen x <=? strlen s)%N; [|discriminate]. injection C as ->.
  destruct (settled_output_units s u R) as (us & -> & F).
  destruct (safe_fixed_units us F) as (us2 & -> & F2).
  destruct (dropped_fixed us2 (wipe (concat us2)) F2) as (us3 & -> & F3); [eapply wiped_dropped, wipe_wiped|].
  rewrite (shipped_utf_8 _ H). apply remarks_cons_quiet; [|intros m l'; apply quiet_tail].
  intros l' R'. unfold filter_remarks in R'. cbn [f_cleaner table_filter f_table] in R'.
  apply (fixed_quiet us3 l' F3). revert R'. clear. intros R.
  assert (G : forall e1 e2, (forall k, e1 k = e2 k) -> forall s l, utf8_remarks e1 s l -> utf8_remarks e2 s l).
  { intros e1 e2 X s0 l0 K. induction K as [|u cp s0 w l0 Q V K IH|s0 Hd|s0 Hd|b s0 l0 Hd K IH];
      [constructor | | eapply um_ended; eauto | eapply um_cut; eauto | eapply um_bad; eauto].
    eapply um_seq; eauto. destruct V as [r E|E Z|ds E Gt D|E Gt]; rewrite X in E;
      [eapply vr_entry|apply vr_nul|apply vr_large|apply vr_fine]; eauto. }
  revert R. apply G. apply builtin_unicode_get.
Qed.
