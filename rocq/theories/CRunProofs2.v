(** * Linked filters in memory: a filter, a sequence, many names *)

From Verif Require Import Base BaseFacts Stdio Table CleanString CleanUtf8 Filter Prog Warnings Mem MemSpec MemFacts CFilters CFiltersProofs CMainProofs
  Words WordsSpec WordsFacts CTable CTableProofs CTableProofs2 FilesSpec CConfig LinkedSpec CConfigProofs CLoadSpec CReview CReviewSpec CReviewProofs CRun CRunSpec CRunProofs.

Local Open Scope nat_scope.

Section proofs.

Context {al : allocator}.
Hypothesis Lim : limited al.
Context (literal : str -> ptr) (pf : platform).

Lemma table_of_more s q t k k' own : k <= k' -> table_of s q t k own -> table_of s q t k' own.
Proof. intros L. destruct q, t; cbn; auto. intros (c & T & M). exists c. split; [exact T|]. eapply seldom_more; eauto. Qed.

Lemma reviewed_more s ps : forall fs k k' own, k <= k' -> reviewed_at s ps fs k own -> reviewed_at s ps fs k' own.
Proof.
  induction ps as [|p ps IH]; intros [|f fs] k k' own L; cbn [reviewed_at]; auto.
  intros (fn & bn & tb & town & rest & C & F & B & T & E & R). exists fn, bn, tb, town, rest. splits; eauto using table_of_more.
Qed.

(** ** A filter *)

Lemma filter_extends f h p x said a h' : cstr_at h p x -> fits x -> c_filter_run pf f (Some p) h = (said, Ok (a, h')) ->
  (exists more, h' = h ++ more) /\
  match a with
  | Some q => exists r, snd (filter_run_says pf f (Some x)) = Ok (Some r) /\ CFiltersProofs.leaves h q r h'
  | None => snd (filter_run_says pf f (Some x)) = Ok None
  end.
Proof.
  intros C F E. destruct (filter_same Lim pf f h p x C F) as [(_ & A)|G].
  - rewrite E in A. cbn [snd] in A. destruct a as [q|], (snd (filter_run_says pf f (Some x))) as [[r|]|u|c]; try contradiction.
    + split; [|exists r; auto]. destruct A as (i & j & rest & -> & _). eauto.
    + destruct A as ((n & ->) & _). eauto.
  - rewrite E in G. destruct G as (o & o' & message & h0 & n & _ & G & _). discriminate.
Qed.

Lemma filter_step s p f w name filename builtin next table k town :
  content s p [next; Num (code_of (f_cleaner f)); filename; builtin; Num (if f_remove_trailing f then 1 else 0); Num (Z.of_N (f_max_length f)); Adr table] ->
  familiar f -> table_of s table (f_table f) k town -> literals_in (s_heap s) literal run_literals ->
  cstr_at (s_heap s) w name -> fits name -> (Z.of_nat (k + length name) <= int_max)%Z ->
  lockstep (fun _ s' => table_of s' table (f_table f) (k + length name) town /\ same_but town s s')
    (w_filter_run literal pf (Some p) (Some w) s) (c_filter_run pf f (Some w) (s_heap s)).
Proof.
  intros C Fa T Li W Fi Few.
  assert (Plain : forall m : mem (option ptr), m (s_heap s) = c_filter_run pf f (Some w) (s_heap s) ->
     lockstep (fun _ s' => table_of s' table (f_table f) (k + length name) town /\ same_but town s s') (bytes m s) (m (s_heap s))).
  { intros m E. apply lockstep_bytes; [reflexivity|]. intros said a h Em. rewrite E in Em. split; [|now intros b _].
    destruct (filter_extends f _ _ _ _ _ _ W Fi Em) as ((more & ->) & _). apply (table_of_more _ _ _ k); [lia|].
    destruct table as [q|], (f_table f) as [t|]; cbn [table_of] in *; auto. destruct T as (c & T & M). exists c. split; [|exact M].
    eapply table_at_same; [|exact T]. intros b I. cbn. split; [|reflexivity]. apply nth_error_app1. eapply own_old; eauto. }
  assert (Tabled : forall (kw : option ptr -> wmem (option ptr)) (km : option Table.table -> mem (option ptr)),
     (forall h, km None h = outside internal_error h) -> (forall s, kw None s = w_exit internal_error s) ->
     (forall q t c, table = Some q -> f_table f = Some t -> table_at s q t c town -> seldom k c ->
        lockstep (fun _ => looked_up s q t k (length (s_heap s)) town name []) (kw (Some q) s) (km (Some t) (s_heap s))) ->
     lockstep (fun _ s' => table_of s' table (f_table f) (k + length name) town /\ same_but town s s')
       (wbind (ptr_at p FT_table) kw s) (km (f_table f) (s_heap s))).
  { intros kw km Nm Nw K. rewrite (wbind_done _ _ _ _ _ (ptr_at_ok _ _ _ FT_table _ C eq_refl)).
    destruct table as [q|], (f_table f) as [t|]; cbn [table_of] in T; try contradiction.
    - destruct T as (c & T & M). eapply lockstep_weaken; [now apply (K q t c)|]. intros a s' (Ke & Sb & _ & c' & T' & M'). split.
      + exists c'. split; [exact T'|]. eapply seldom_more; [|exact M']. cbn. lia.
      + intros b Nb. apply Sb. intros [<-|[]]. apply Nb. destruct T as (rp & ds & df & _ & _ & _ & _ & -> & _). now left.
    - rewrite Nm, Nw. now split. }
  unfold w_filter_run. rewrite (wbind_done _ _ _ _ _ (int_at_ok _ _ _ FT_cleaner _ C eq_refl)).
  destruct (f_cleaner f) eqn:Ec; cbn [code_of]; cbv [cleaner_code]; cbn [Z.eqb Pos.eqb].
  - replace (c_filter_run pf f (Some w) (s_heap s)) with (c_clean_iso8859_1 (Some w) (f_table f) (s_heap s)) by (unfold c_filter_run; now rewrite Ec).
    apply (Tabled _ (fun t => c_clean_iso8859_1 (Some w) t)); try reflexivity. intros q t c -> Et T' M. eapply iso8859_1_step; eauto.
  - replace (c_filter_run pf f (Some w) (s_heap s)) with (c_clean_lower (p_ctype pf) (Some w) (s_heap s)) by (unfold c_filter_run; now rewrite Ec).
    apply Plain. unfold c_filter_run. now rewrite Ec.
  - rewrite (wbind_done _ _ _ _ _ (int_at_ok _ _ _ FT_max_length _ C eq_refl)), N2Z.id.
    replace (c_filter_run pf f (Some w) (s_heap s)) with (c_clean_max_length (Some w) (f_max_length f) (s_heap s)) by (unfold c_filter_run; now rewrite Ec).
    apply Plain. unfold c_filter_run. now rewrite Ec.
  - replace (c_filter_run pf f (Some w) (s_heap s)) with (c_clean_safe (p_schar pf) (Some w) (f_table f) (s_heap s)) by (unfold c_filter_run; now rewrite Ec).
    apply (Tabled _ (fun t => c_clean_safe (p_schar pf) (Some w) t)); try reflexivity. intros q t c -> Et T' M. eapply safe_step; eauto.
  - replace (c_filter_run pf f (Some w) (s_heap s)) with (c_clean_uncgi (Some w) (s_heap s)) by (unfold c_filter_run; now rewrite Ec).
    apply Plain. unfold c_filter_run. now rewrite Ec.
  - replace (c_filter_run pf f (Some w) (s_heap s)) with (c_clean_utf_8 (Some w) (f_table f) (s_heap s)) by (unfold c_filter_run; now rewrite Ec).
    apply (Tabled _ (fun t => c_clean_utf_8 (Some w) t)); try reflexivity. intros q t c -> Et T' M. eapply utf_8_step; eauto.
  - rewrite (wbind_done _ _ _ _ _ (int_at_ok _ _ _ FT_remove_trailing _ C eq_refl)).
    replace (negb ((if f_remove_trailing f then 1 else 0) =? 0)%Z) with (f_remove_trailing f) by now destruct (f_remove_trailing f).
    replace (c_filter_run pf f (Some w) (s_heap s)) with (c_clean_wipeup (Some w) (f_remove_trailing f) (s_heap s)) by (unfold c_filter_run; now rewrite Ec).
    apply Plain. unfold c_filter_run. now rewrite Ec.
  - exfalso. exact (Fa _ Ec).
Qed.

(** ** A sequence *)

Lemma reviewed_room s ps : forall fs k own, reviewed_at s ps fs k own -> NoDup own -> length ps <= heap_size (s_heap s).
Proof.
  intros fs k own A ND. rewrite <- (map_length p_block ps). apply CConfigProofs2.nonempty_room.
  - revert fs own A ND. induction ps as [|p ps IH]; intros [|f fs] own; cbn [reviewed_at]; try tauto; [constructor|].
    intros (fn & bn & tb & town & rest & C & Fn & Bn & Ft & -> & A) ND. cbn [map]. apply NoDup_cons_iff in ND as (Np & ND). constructor; [|exact (IH _ _ A (NoDup_r _ _ (NoDup_r _ _ ND)))].
    intros I. apply Np. apply in_app_iff. right. apply in_app_iff. right. clear - A I. revert fs rest A. induction ps as [|x ps IH]; intros [|f fs] rest; cbn [reviewed_at]; try tauto; [destruct I|].
    intros (fn & bn & tb & town & rest' & C & Fn & Bn & Ft & -> & A). destruct I as [I|I]; [now left|]. right. apply in_app_iff. right. apply in_app_iff. right. exact (IH I _ _ A).
  - intros b I. apply in_map_iff in I as (p & <- & I). revert fs own A ND I. induction ps as [|x ps IH]; intros [|f fs] own; cbn [reviewed_at In]; try tauto.
    intros (fn & bn & tb & town & rest & C & Fn & Bn & Ft & -> & A) ND [->|I].
    + destruct C as (_ & _ & [|c cells] & E & L); [cbn in L; lia|]. eauto.
    + apply NoDup_cons_iff in ND as (_ & ND). exact (IH _ _ A (NoDup_r _ _ (NoDup_r _ _ ND)) I).
Qed.

Definition body := fun '((filter, work) : option ptr * option ptr) =>
  match filter, work with
  | Some f, Some w =>
    let$ hold := w_filter_run literal pf (Some f) (Some w) in
    let$ _ := bytes (free w) in
    let$ next := ptr_at f FT_next in
    wret (inl (next, hold))
  | _, _ => wret (inr work)
  end.

Lemma body_null fuel filter s : wrounds (S fuel) body (filter, None) s = done (None, s).
Proof. cbn [wrounds body]. destruct filter; now rewrite wbind_ret. Qed.

Lemma run_null fs : c_run_filters pf fs None = mret None.
Proof. now destruct fs. Qed.

Lemma run_rounds h0 ps : forall fuel fs k own w name s, reviewed_at s ps fs k own -> NoDup own -> (forall b, In b own -> b < length h0) ->
  Forall familiar fs -> literals_in h0 literal run_literals -> CFiltersProofs.leaves h0 w name (s_heap s) -> length ps < fuel ->
  (Z.of_nat (k + longest pf fs name) <= int_max)%Z ->
  lockstep (fun _ s' => reviewed_at s' ps fs (k + longest pf fs name) own /\ same_but own s s' /\ kept (length h0) (s_heap s) (s_heap s'))
    (wrounds fuel body (first ps None, Some w) s) (c_run_filters pf fs (Some w) (s_heap s)).
Proof.
  induction ps as [|p ps IH]; intros [|fuel] [|f fs] k own w name s R ND Old Fam Li Lv Fu Few; cbn [length] in Fu; try lia; cbn [reviewed_at] in R; try contradiction.
  - subst own. cbn [first wrounds body c_run_filters]. rewrite wbind_ret. apply lockstep_ret; [reflexivity|]. splits; [reflexivity|now intros b _|apply kept_refl].
  - destruct R as (fn & bn & tb & town & rest & C & F & B & T & -> & R). inversion Fam as [|? ? Ff Fr]. subst. cbn [longest] in Few |- *.
    pose proof (leaves_cstr _ _ _ _ Lv) as Cw. pose proof (leaves_fits _ _ _ _ Lv) as Fi. destruct (leaves_free _ _ _ _ Lv) as (n & Ln & Free & Sz).
    assert (K0 : kept (length h0) h0 (s_heap s)).
    { destruct Lv as (i & j & r & -> & _). split; [rewrite app_length; lia|]. intros b I. now apply nth_error_app1. }
    assert (Ls : literals_in (s_heap s) literal run_literals).
    { intros x I. eapply kept_cstr; [exact K0| |now apply Li]. destruct (Li x I) as (cells & r & E & _). apply nth_error_Some. congruence. }
    cbn [first wrounds body c_run_filters]. rewrite wbind_assoc.
    eapply lockstep_bind; [reflexivity|eapply filter_step; eauto; lia|].
    intros said hold s1 E (T1 & Sb1). destruct (filter_extends _ _ _ _ _ _ _ Cw Fi E) as ((more & Hm) & Res).
    rewrite wbind_assoc. assert (Fw : free w (s_heap s1) = done (tt, h0 ++ repeat None n ++ more)) by (rewrite Hm; apply Free).
    rewrite (wbind_done _ _ _ _ _ (bytes_done _ _ _ _ Fw)), (mbind_done _ _ _ _ _ Fw).
    set (s2 := mkStore (h0 ++ repeat None n ++ more) (s_words s1)).
    assert (K2 : kept (length h0) (s_heap s) (s_heap s2)).
    { destruct K0 as (L0 & K0). split.
      - cbn [s2 s_heap]. rewrite Ln, !app_length, repeat_length. lia.
      - intros b I. cbn [s2 s_heap]. rewrite nth_error_app1 by exact I. symmetry. now apply K0. }
    apply NoDup_cons_iff in ND as (Np & ND).
    assert (Same : forall b, In b (p_block p :: block_list [fn; bn] ++ rest) -> same_at s s2 b).
    { intros b I. split; [apply K2, Old|].
      - destruct I as [<-|I]; [now left|]. right. rewrite in_app_iff in I. rewrite !in_app_iff. tauto.
      - cbn [s2 s_words]. apply Sb1. intros J. destruct I as [<-|I].
        + apply Np. rewrite !in_app_iff. tauto.
        + rewrite in_app_iff in I. destruct I as [I|I].
          * apply (NoDup_apart _ _ _ ND I). apply in_app_iff. now left.
          * exact (NoDup_apart _ _ _ (NoDup_r _ _ ND) J I). }
    assert (C2 : content s2 p [Adr (first ps None); Num (code_of (f_cleaner f)); Adr fn; Adr bn; Num (if f_remove_trailing f then 1 else 0); Num (Z.of_N (f_max_length f)); Adr tb]).
    { apply (content_at s); [|exact C]. apply Same. now left. }
    rewrite wbind_assoc, (wbind_done _ _ _ _ _ (ptr_at_ok _ _ _ FT_next _ C2 eq_refl)), wbind_ret.
    assert (R2 : reviewed_at s2 ps fs k rest).
    { apply (reviewed_same s); [|exact R]. intros b I. apply Same. right. apply in_app_iff. now right. }
    assert (T2 : table_of s2 tb (f_table f) (k + length name) town).
    { apply (table_of_same s1); [|exact T1]. intros b I. split; [|reflexivity]. cbn [s2 s_heap].
      assert (L : b < length h0). { apply Old. right. rewrite !in_app_iff. tauto. }
      rewrite nth_error_app1 by exact L. rewrite Hm, nth_error_app1 by lia. symmetry. now apply K0. }
    set (m := match snd (filter_run_says pf f (Some name)) with Ok (Some name') => longest pf fs name' | _ => 0 end) in *.
    (* what is left *)
    assert (End : forall s3, reviewed_at s3 ps fs (k + m) rest -> same_but rest s2 s3 -> kept (length h0) (s_heap s2) (s_heap s3) ->
       (exists filename builtin table town0 rest0,
          content s3 p [Adr (first ps None); Num (code_of (f_cleaner f)); Adr filename; Adr builtin; Num (if f_remove_trailing f then 1 else 0); Num (Z.of_N (f_max_length f)); Adr table] /\
          string_in (s_heap s3) filename (f_filename f) /\ string_in (s_heap s3) builtin (f_builtin f) /\ table_of s3 table (f_table f) (k + Nat.max (length name) m) town0 /\
          p_block p :: block_list [fn; bn] ++ town ++ rest = p_block p :: block_list [filename; builtin] ++ town0 ++ rest0 /\ reviewed_at s3 ps fs (k + Nat.max (length name) m) rest0) /\
       same_but (p_block p :: block_list [fn; bn] ++ town ++ rest) s s3 /\ kept (length h0) (s_heap s) (s_heap s3)).
    { intros s3 R3 Sb3 K3. splits.
      - exists fn, bn, tb, town, rest.
        assert (S3 : forall b, In b (p_block p :: block_list [fn; bn] ++ town) -> same_at s2 s3 b).
        { intros b I. split.
          - apply K3, Old. destruct I as [<-|I]; [now left|]. right. rewrite in_app_iff in I. rewrite !in_app_iff. tauto.
          - apply Sb3. intros J. destruct I as [<-|I].
            + apply Np. rewrite !in_app_iff. tauto.
            + rewrite in_app_iff in I. destruct I as [I|I].
              * apply (NoDup_apart _ _ _ ND I). apply in_app_iff. now right.
              * exact (NoDup_apart _ _ _ (NoDup_r _ _ ND) I J). }
        assert (S13 : forall b, In b (p_block p :: block_list [fn; bn]) -> same_at s s3 b).
        { intros b I. destruct (Same b) as (X1 & X2). { destruct I as [<-|I]; [now left|]. right. apply in_app_iff. now left. }
          destruct (S3 b) as (Y1 & Y2). { destruct I as [<-|I]; [now left|]. right. apply in_app_iff. now left. }
          split; congruence. }
        splits; auto.
        + apply (content_at s); [|exact C]. apply S13. now left.
        + apply (string_same s); [|exact F]. intros b I. apply S13. right. cbn in *. rewrite app_nil_r in *. apply in_app_iff. now left.
        + apply (string_same s); [|exact B]. intros b I. apply S13. right. cbn in *. rewrite app_nil_r in *. apply in_app_iff. now right.
        + apply (table_of_more _ _ _ (k + length name)); [lia|]. apply (table_of_same s2); [|exact T2]. intros b I. apply S3. right. apply in_app_iff. now right.
        + eapply reviewed_more; [|exact R3]. lia.
      - intros b Nb. rewrite Sb3.
        + cbn [s2 s_words]. apply Sb1. intros J. apply Nb. right. rewrite !in_app_iff. tauto.
        + intros J. apply Nb. right. rewrite !in_app_iff. tauto.
      - eapply kept_trans; eauto. }
    destruct hold as [q|].
    + destruct Res as (r & Er & (i & j & rst & Hh & -> & Nr & Bd)).
      assert (Em : m = longest pf fs r) by (unfold m; now rewrite Er). clearbody m. subst m.
      change (h0 ++ repeat None n ++ more) with (s_heap s2).
      eapply lockstep_weaken; [eapply (IH fuel fs k rest)|].
      * exact R2.
      * exact (NoDup_r _ _ (NoDup_r _ _ ND)).
      * intros b I. apply Old. right. rewrite !in_app_iff. tauto.
      * exact Fr.
      * exact Li.
      * exists (n + i), j, rst. rewrite Hm in Hh. apply app_inv_head in Hh. subst more. splits; auto.
        -- cbn [s2 s_heap]. now rewrite repeat_app, <- !app_assoc.
        -- f_equal. lia.
        -- exact Nr.
        -- revert Bd. unfold bounded. cbn [s2 s_heap]. rewrite Hm, !size_app, !size_nones. lia.
      * lia.
      * lia.
      * intros a s3 (R3 & Sb3 & K3). now apply End.
    + rewrite run_null. destruct fuel as [|fuel]; [lia|]. rewrite body_null. apply lockstep_ret; [reflexivity|].
      apply End; [|now intros b _|apply kept_refl]. eapply reviewed_more; [|exact R2]. lia.
Qed.

End proofs.
