(** * What ends a run in inline mode early *)

From Verif Require Import Base BaseFacts Stdio CleanString CleanSpec CleanUtf8 Utf8Spec CleanStringProofs CleanUtf8Proofs Filter Spoof SequenceSpec
  SequenceProofs Filelist Prog ProgFacts File FS FileSpec FileProofs FileProofs2 Inline InlineSpec InlineProofs ConfigParse ConfigLoad
  ConfigLoadSpec ConfigLoadProofs Options OptionsSpec OptionsProofs Startup Main MainSpec MainProofs RunSpec RunProofs RunProofs3 InlineRunSpec InlineRunProofs.

Local Open Scope nat_scope.

(** ** Valid text *)

Lemma valid_head s : valid_utf8 s -> s <> [] -> exists cp s', scalar cp /\ s = encode cp ++ s' /\ valid_utf8 s'.
Proof.
  intros (cps & F & ->) NE. destruct cps as [|cp cps]; [contradiction|]. inversion F; subst. exists cp, (flat_map encode cps).
  splits; auto. exists cps. auto.
Qed.

Lemma valid_no_overlong s u : valid_utf8 s -> infix u s -> ~ overlong_nul u.
Proof.
  intros (cps & F & E) (a & b & ->) [Sq L]. symmetry in E.
  destruct (valid_cut cps F _ _ E) as (p & u1 & u2 & q & -> & E2 & Vp & Vq & H).
  inversion Sq as [c conts w W Lc Fc Eu V]; subst u.
  assert (Q : valid_utf8 ((c :: conts) ++ b)).
  { destruct H as [(-> & ->)|(Nu & cp & Hc & Ec)].
    - cbn [app] in E2. cbn [app]. now rewrite E2.
    - destruct u2 as [|d u2]; [cbn [app] in E2 |- *; now rewrite E2|]. exfalso.
      destruct (encode_head cp Hc) as (c1 & k1 & w1 & Eh & W1 & Lc1 & Fc1). rewrite Eh in Ec.
      destruct u1 as [|x u1]; [contradiction|]. injection Ec as <- ->. apply Forall_app in Fc1. destruct Fc1 as [_ Fm].
      inversion Fm as [|d' u' Cd _]; subst. cbn [app] in E2. injection E2 as <- _. now apply (width_not_cont _ _ W). }
  destruct (valid_head _ Q) as (cp & s' & Hc & E3 & _); [discriminate|].
  pose proof (encode_sequence cp (scalar_bound _ Hc)) as Se. inversion Se as [c1 k1 w1 W1 L1 F1 Ee V1].
  rewrite <- Ee in E3. cbn [app] in E3. injection E3 as <- E3. rewrite W in W1. injection W1 as <-.
  assert (conts = k1) as <-.
  { apply (f_equal (firstn (w - 1))) in E3. rewrite <- Lc in E3 at 1. rewrite <- L1 in E3. rewrite !firstn_app, !firstn_all, !Nat.sub_diag in E3.
    cbn [firstn] in E3. now rewrite !app_nil_r in E3. }
  assert (Z : cp = 0%N) by congruence. rewrite Ee, Z in L. exact (Nat.lt_irrefl 1 L).
Qed.

Lemma piece_valid schar input t nl w rest : nonul input -> valid_utf8 input -> piece_of schar input t nl w rest ->
  line_text t /\ valid_utf8 t /\ length t <= 1012 /\ nonul rest /\ valid_utf8 rest.
Proof.
  intros U V P. destruct P as [t rest N Ut|bytes behind add w rest N NL NO C].
  - destruct N as (-> & _ & L & [(t' & E & Nt)|[Nt _]]).
    + apply app_inj_tail in E. destruct E as [<- _]. rewrite <- app_assoc in V. apply valid_line in V. destruct V as [V1 V2].
      apply nonul_app in U. rewrite app_length in L. simpl in L. splits; auto; [split; auto|lia|tauto].
    + exfalso. apply Nt, in_elt.
  - destruct N as (-> & B & L & _). apply nonul_app in U. destruct U as [Ub Ur]. rewrite (cstr_nonul _ Ub) in *.
    destruct (complete_valid schar bytes behind V B L) as (a & r & E & Cm & Va & Vr).
    destruct (complete_exact schar bytes behind L NO) as (a2 & w2 & r2 & Cm2 & C2).
    destruct (completed_fun _ _ _ _ _ _ _ _ _ C C2) as (<- & <- & <-). rewrite Cm in Cm2. injection Cm2 as E3 <- <-. apply app_inv_head in E3. subst a.
    destruct (complete_spec schar bytes behind L) as [_ X]. destruct (X NO) as (a3 & r3 & w3 & Cm3 & -> & La & Na & Nu).
    rewrite Cm in Cm3. injection Cm3 as E3 -> _. apply app_inv_head in E3. subst a3. apply nonul_app in Ur.
    rewrite app_length. splits; auto; [|lia|tauto]. split; [apply nonul_app; auto|]. intros Y. apply in_app_or in Y. tauto.
Qed.

Lemma valid_inside contents : valid_utf8 contents -> nonul contents -> ~ looks_outside contents.
Proof.
  intros V U (b & r & (-> & B & _) & _ & C). apply nonul_app in U. destruct U as [Ub _]. rewrite (cstr_nonul _ Ub) in C.
  exact (valid_not_only b r V B C).
Qed.

Lemma valid_stream o contents tr w : nonul contents -> valid_utf8 contents -> stream_read o contents tr (Some w) ->
  exists t, line_text t /\ valid_utf8 t /\ length t <= 1012 /\ cleaning_ends o t w.
Proof.
  intros U V H. remember (Some w) as e eqn:E. revert U V E.
  induction H as [|input t nl w' rest c r tr e P _ C _ IH|input t nl w' rest c e P _ C|input B]; intros U V E; try discriminate.
  - destruct (piece_valid _ _ _ _ _ _ U V P) as (_ & _ & _ & U' & V'). auto.
  - injection E as ->. destruct (piece_valid _ _ _ _ _ _ U V P) as (T & Vt & L & _). eauto.
  - elim (valid_inside input V U B).
Qed.

(** ** Runs that end early *)

Lemma inline_early o f tr w : inline_read o f tr (Some w) -> exists contents tr2,
  In (Ev (ReadStream f) (inl contents)) tr /\ stream_read o contents tr2 (Some w).
Proof.
  intros H. remember (Some w) as e eqn:E. destruct H as [f contents tr e H|f m|m]; try discriminate. subst. exists contents, tr. split; [now left|auto].
Qed.

Lemma session_early o fs tr w : inline_session o fs tr (Some w) -> exists f contents tr2,
  In (Ev (ReadStream f) (inl contents)) tr /\ stream_read o contents tr2 (Some w).
Proof.
  intros H. destruct fs as [|f0 fs0]; [destruct (inline_early _ _ _ _ H) as (c & t & X); eauto|].
  cbn [inline_session] in H. remember (f0 :: fs0) as fs eqn:Efs. clear f0 fs0 Efs. remember (Some w) as e eqn:E.
  assert (A : forall f t, inline_argument o f t (Some w) -> exists f contents tr2,
     In (Ev (ReadStream f) (inl contents)) t /\ stream_read o contents tr2 (Some w)).
  { intros f t A. remember (Some w) as e' eqn:E'. destruct A as [m|st K|st t e' K R]; try discriminate. subst.
    destruct (inline_early _ _ _ _ R) as (c & t2 & I & X). exists (Some f), c, t2. split; [now right|auto]. }
  induction H as [|f fs t1 t2 e A1 _ IH|f fs t w' A1]; try discriminate.
  - destruct (IH E) as (f' & c & t3 & I & X). exists f', c, t3. split; auto. apply in_or_app. auto.
  - injection E as ->. eauto.
Qed.

Lemma inline_out_of_the_box fuel sy argv tr w :
  trace_of (main fuel sy argv) tr (Stop w) -> Exists (fun e => match e with Ev c _ => ~ is_print c end) tr ->
  config_paths (m_env sy) = [] ->
  (forall ws fs, asks (posix_env sy) (tl argv) ws fs ->
     last_of config_named ws None /\ (In Inline_mode ws \/ (exists a r, argv = a :: r /\ called a (bs "inline-detox"))) /\
     (exists name, In name [None; Some (bs "default"); Some (bs "iso8859_1"); Some (bs "iso8859_1-legacy"); Some (bs "utf_8");
                            Some (bs "uncgi"); Some (bs "lower")] /\ wanted_sequence sy ws name /\
       (name = Some (bs "lower") -> p_ctype (m_platform sy) = c_locale))) ->
  exists f contents, In (Ev (ReadStream f) (inl contents)) tr /\ ~ (nonul contents /\ valid_utf8 contents).
Proof.
  intros T X CP H. destruct (inline_program sy argv) as [(w' & E)|(ws & fs & o & c & said & St & _ & D)].
  { exfalso. destruct (only_trace _ _ _ _ (ends_only _ _ (E fuel)) T) as [F _]. apply Exists_exists in X.
    destruct X as (e & Ie & He). rewrite Forall_forall in F. specialize (F e Ie). destruct e. contradiction. }
  pose proof (st_asks _ _ _ _ _ _ St) as A. destruct (H ws fs A) as (F' & NI & (name' & In' & W' & Lo)).
  assert (Im : o_is_inline_mode o = true) by (apply (st_inline _ _ _ _ _ _ St); tauto).
  apply (D Im) in T. destruct T as (tr2 & -> & T). apply session_early in T. destruct T as (f & contents & t3 & I & R).
  exists f, contents. split; [apply in_or_app; now right|]. intros [U V].
  destruct (valid_stream _ _ _ _ U V R) as (base & (Ub & _) & Vb & Lb & (_ & _ & C)).
  destruct (st_config _ _ _ _ _ _ St) as (file & pr & F & Cf).
  destruct (st_sequence _ _ _ _ _ _ St) as (name & s0 & s1 & W & Ch & Rv & Os).
  assert (file = None) as -> by (eapply last_of_unique; eauto).
  assert (name' = name) as ->.
  { destruct W as (n & W1 & ->). destruct W' as (n' & W1' & ->). now rewrite (last_of_unique _ _ _ _ W1' W1). }
  rewrite config_file_load_spec, CP in Cf. cbn [read_all] in Cf. apply (f_equal snd) in Cf. change (Ok spoof_config_file = Ok c) in Cf. injection Cf as <-.
  assert (Sh : exists n, In n [bs "default"; bs "iso8859_1"; bs "iso8859_1-legacy"; bs "utf_8"; bs "uncgi"; bs "lower"] /\
     (n = bs "lower" -> name = Some (bs "lower")) /\ shipped n s1).
  { assert (Dn : forall n, sequence_choose_default (cf_sequences spoof_config_file) (Some n) = Some s0 -> shipped n s1).
    { intros n Y. destruct Rv as (find & _ & Rv). exists (e_datadir (m_env sy)), find, s0. auto. }
    destruct In' as [<-|[<-|[<-|[<-|[<-|[<-|[<-|[]]]]]]]].
    - exists (bs "default"). splits; [simpl; tauto|discriminate|]. apply Dn.
      rewrite choose_default in Ch. destruct (sequence_choose_default _ (Some (bs "default"))) eqn:Y; [exact Ch|].
      vm_compute in Y. discriminate.
    - exists (bs "default"). splits; [simpl; tauto|discriminate|auto].
    - exists (bs "iso8859_1"). splits; [simpl; tauto|discriminate|auto].
    - exists (bs "iso8859_1-legacy"). splits; [simpl; tauto|discriminate|auto].
    - exists (bs "utf_8"). splits; [simpl; tauto|discriminate|auto].
    - exists (bs "uncgi"). splits; [simpl; tauto|discriminate|auto].
    - exists (bs "lower"). splits; [simpl; tauto|auto|auto]. }
  destruct Sh as (n & In2 & L2 & Sh).
  destruct (shipped_total (o_platform o) n s1 base In2) as (out & Q).
  { intros E. rewrite (st_platform _ _ _ _ _ _ St). auto. }
  { exact Sh. } { exact Ub. } { unfold small, strlen. eapply N.le_lt_trans with 1012%N; [lia|reflexivity]. }
  { intros E u Iu. now apply (valid_no_overlong base). }
  rewrite Os, Q in C. exact C.
Qed.
