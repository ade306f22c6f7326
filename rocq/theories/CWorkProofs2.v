(** * Files and directories with lists and sequence in memory *)

From Verif Require CRunProofs CRunProofs3.
From Verif Require Import Base BaseFacts Stdio CleanString Filter Filelist FilelistProofs Prog ProgFacts Warnings File FileSpec FileProofs Inline Startup Main Mem MemFacts MemSpec CFilters CFiltersProofs CFile CSim
  WarningsProofs MainSpec MainProofs CFileProofs CArgumentsProofs CInlineProofs Words WordsSpec WordsFacts CFilelist FilesSpec CFilelistProofs CConfigProofs CLoadSpec CReviewSpec CRun CRunSpec CRunProofs CRunProofs3 CWork CWorkSpec CWorkSim CWorkProofs.

Local Open Scope nat_scope.

Lemma lockstep_with {A} (Q Q' : A -> store_t -> Prop) w m : lockstep Q w m -> (forall said a s, w = (said, Ok (a, s)) -> Q a s -> Q' a s) -> lockstep Q' w m.
Proof.
  intros (E & S) K. split; [exact E|]. destruct w as [o [[a s]|u|c]], m as [o' [[b h]|v|d]]; cbn in *; auto.
  destruct S as (<- & <- & H). splits; auto. now apply (K o).
Qed.

Section proofs.

Context {al : allocator}.
Hypothesis Lim : limited al.
Context (literal : str -> ptr) (sequence ignore files : option ptr) (q0 : sequence_t) (sown iown fown : list nat) (h0 : heap) (k0 : nat) (spared : list str) (o : options_t).
Hypothesis Use : o_sequence_to_use o = Some q0.

Let pf := o_platform o.
Let cost (name : str) := longest pf (s_filters q0) name.
Let spent (tr : list event) := k0 + lookups pf (s_filters q0) (names_in (p_schar pf) tr).

(** The members of the options, when the words are [ws] *)
Definition steady (ign fs : option filelist) (k : nat) (ws : words) : Prop :=
  set_up literal (mkStore h0 ws) sequence ignore files q0 ign fs k sown iown fown /\ items ign = spared.

Definition longer (h : heap) : Prop := exists more, h = h0 ++ more.

Notation wsim := (wsim (fun h _ => longer h) (worn pf q0 k0)).

Lemma longer_app (h a : heap) : longer h -> longer (h ++ a).
Proof. intros (m & ->). exists (m ++ a). now rewrite app_assoc. Qed.

Lemma longer_short (h : heap) : longer h -> forall more (n : N), longer (h ++ more).
Proof. intros L more _. now apply longer_app. Qed.

Lemma steady_old ign fs k ws b : steady ign fs k ws -> In b (sown ++ iown ++ fown) -> b < length h0.
Proof.
  intros (((p & _ & R) & _ & _ & I & F & _) & _) Ib. rewrite !in_app_iff in Ib. destruct Ib as [Ib|[Ib|Ib]].
  - exact (ready_old _ _ _ _ _ _ R Ib).
  - exact (listed_old _ _ _ _ _ I Ib).
  - exact (listed_old _ _ _ _ _ F Ib).
Qed.

Lemma set_up_same s s' ign fs k : (forall b, In b (sown ++ iown ++ fown) -> same_at s s' b) -> literals_in (s_heap s') literal run_literals ->
  set_up literal s sequence ignore files q0 ign fs k sown iown fown -> set_up literal s' sequence ignore files q0 ign fs k sown iown fown.
Proof.
  intros Sm Li ((p & Es & R) & Fam & _ & I & F & ND). unfold set_up. splits; auto.
  - exists p. split; [exact Es|]. apply (ready_same s); [|exact R]. intros b Ib. apply Sm. rewrite !in_app_iff. tauto.
  - apply (listed_same s); [|exact I]. intros b Ib. apply Sm. rewrite !in_app_iff. tauto.
  - apply (listed_same s); [|exact F]. intros b Ib. apply Sm. rewrite !in_app_iff. tauto.
Qed.

Lemma steady_at ign fs k ws (h : heap) : longer h -> steady ign fs k ws -> set_up literal (mkStore h ws) sequence ignore files q0 ign fs k sown iown fown.
Proof.
  intros (m & ->) St. apply (set_up_same (mkStore h0 ws)); [| |exact (proj1 St)].
  - intros b I. split; [|reflexivity]. cbn [s_heap]. apply nth_error_app1. eapply steady_old; eauto.
  - destruct St as ((_ & _ & Li & _) & _). apply (literals_same h0); [|exact Li]. intros b L. now apply nth_error_app1.
Qed.

Lemma steady_from ign fs k ign' fs' k' ws ws' (h : heap) : longer h -> steady ign' fs' k' ws' ->
  set_up literal (mkStore h ws) sequence ignore files q0 ign fs k sown iown fown -> items ign = items ign' -> steady ign fs k ws.
Proof.
  intros (m & ->) St H Ei. split; [|rewrite Ei; exact (proj2 St)]. apply (set_up_same (mkStore (h0 ++ m) ws)); [| |exact H].
  - intros b I. split; [|reflexivity]. cbn [s_heap]. symmetry. apply nth_error_app1. eapply steady_old; eauto.
  - now destruct St as ((_ & _ & Li & _) & _).
Qed.

(** ** The lists *)

Lemma apart_l {A} (a b : list A) x : NoDup (a ++ b) -> In x a -> ~ In x b.
Proof. intros ND Ia Ib. induction a as [|y a IH]; [exact Ia|]. cbn in ND. apply NoDup_cons_iff in ND as (N & ND). destruct Ia as [->|Ia]; [|now apply IH]. apply N. apply in_app_iff. now right. Qed.

Lemma ignore_steady d ign fs k ws (h : heap) : longer h -> steady ign fs k ws ->
  exists b ign' ws', w_ignore_file ignore d (mkStore h ws) = done (b, mkStore h ws') /\ ignore_file d ign = Ok (b, ign') /\ steady ign' fs k ws'.
Proof.
  intros Lo St. pose proof (steady_at _ _ _ _ _ Lo St) as H. pose proof H as ((p & Es & R) & Fam & Li & I & F & ND).
  destruct (ignore_in_memory _ _ d _ _ I) as (b & ign' & s' & E1 & E2 & L' & Eh & Sb & Ei). cbn [s_heap] in Eh.
  assert (E' : s' = mkStore h (s_words s')) by (rewrite <- Eh; symmetry; apply store_eta).
  exists b, ign', (s_words s'). splits; auto; [now rewrite <- E'|].
  apply (steady_from _ _ _ ign fs k _ ws h Lo St); [|auto]. rewrite <- E'. unfold set_up. splits; auto.
  - exists p. split; [exact Es|]. eapply ready_same; [|exact R]. intros x Ix. split; [now rewrite Eh|]. apply Sb. intros Iy. apply (apart_l _ _ x ND Ix). apply in_app_iff. now left.
  - now rewrite Eh.
  - eapply listed_same; [|exact F]. intros x Ix. split; [now rewrite Eh|]. apply Sb. intros Iy.
    apply (apart_l iown fown x); auto. clear - ND. induction sown; [exact ND|]. apply IHl. cbn in ND. now apply NoDup_cons_iff in ND.
Qed.

Lemma file_steady ign fs k ws (h : heap) : longer h -> steady ign fs k ws ->
  exists f x fs' ws', c_filelist_get files (mkStore h ws) = done (f, mkStore h ws') /\ filelist_get fs = Ok (x, fs') /\ string_in h f x /\ steady ign fs' k ws' /\
    x = nth_error (items fs) (cursor fs) /\ items fs' = items fs /\ cursor fs' = onward (items fs) (cursor fs).
Proof.
  intros Lo St. pose proof (steady_at _ _ _ _ _ Lo St) as H. pose proof H as ((p & Es & R) & Fam & Li & I & F & ND).
  destruct (listed_get _ _ _ _ F) as (f & s' & x & fs' & E1 & E2 & Sf & L' & Eh & Sb & Ex & Ei & Ec). cbn [s_heap] in Eh, Sf.
  assert (E' : s' = mkStore h (s_words s')) by (rewrite <- Eh; symmetry; apply store_eta).
  exists f, x, fs', (s_words s'). splits; auto; [now rewrite <- E'|].
  apply (steady_from _ _ _ ign fs k _ ws h Lo St); [|auto]. rewrite <- E'. unfold set_up. splits; auto.
  - exists p. split; [exact Es|]. eapply ready_same; [|exact R]. intros y Iy. split; [now rewrite Eh|]. apply Sb. intros Iz. apply (apart_l _ _ y ND Iy). apply in_app_iff. now right.
  - now rewrite Eh.
  - eapply listed_same; [|exact I]. intros y Iy. split; [now rewrite Eh|]. apply Sb. intros Iz.
    apply (apart_l iown fown y); auto. clear - ND. induction sown; [exact ND|]. apply IHl. cbn in ND. now apply NoDup_cons_iff in ND.
Qed.

(** ** The sequence *)

Lemma run_steady ign fs k ws (h : heap) w name : longer h -> steady ign fs k ws -> cstr_at h w name -> fits name -> (Z.of_nat (k + cost name) <= int_max)%Z ->
  lockstep (fun _ s' => longer (s_heap s') /\ steady ign fs (k + cost name) (s_words s'))
    (w_sequence_run literal pf sequence (Some w) (mkStore h ws)) (c_sequence_run pf (Some q0) (Some w) h).
Proof.
  intros Lo St C Fi Few. pose proof (steady_at _ _ _ _ _ Lo St) as H. pose proof H as ((p & -> & R) & Fam & Li & I & F & ND).
  eapply lockstep_with; [exact (sequence_step Lim literal pf (mkStore h ws) p q0 k sown w name R Fam Li C Fi Few)|].
  intros said a s' E _. destruct (run_in_memory Lim literal pf (mkStore h ws) p q0 k sown w name R Fam Li C Fi Few) as (_ & K).
  destruct (K said a s' E) as (R' & Sb & more & Eh). cbn [s_heap] in Eh.
  assert (Lo' : longer (s_heap s')) by (rewrite Eh; now apply longer_app). split; [exact Lo'|].
  apply (steady_from _ _ _ ign fs k _ ws (s_heap s') Lo' St); [|auto]. rewrite store_eta.
  assert (Old : forall b, b < length h -> nth_error (s_heap s') b = nth_error h b) by (intros b L; rewrite Eh; now apply nth_error_app1).
  assert (Hl : length h0 <= length h) by (destruct Lo as (m & ->); rewrite app_length; lia).
  unfold set_up. splits; auto.
  - exists p. auto.
  - apply (literals_same h); auto.
  - eapply listed_same; [|exact I]. intros b Ib. split.
    + apply Old. exact (listed_old _ _ _ _ _ I Ib).
    + apply Sb. intros Is. apply (apart_l _ _ b ND Is). apply in_app_iff. now left.
  - eapply listed_same; [|exact F]. intros b Ib. split.
    + apply Old. exact (listed_old _ _ _ _ _ F Ib).
    + apply Sb. intros Is. apply (apart_l _ _ b ND Is). apply in_app_iff. now right.
Qed.

Lemma none_steady (h : heap) ws ign fs k : longer h -> steady ign fs k ws ->
  lockstep (fun _ s' => s' = mkStore h ws) (w_sequence_run literal pf sequence None (mkStore h ws)) (c_sequence_run pf (Some q0) None h).
Proof. intros Lo (((p & -> & R) & _) & _). split; cbn; auto. Qed.

(** ** A copy is cleaned *)

Definition tidied (ign fs : option filelist) (k : nat) (h : heap) (name : str) (c : option ptr * store_t) (m : option str) : Prop :=
  cleaned o h name (fst c, s_heap (snd c)) m /\ longer (s_heap (snd c)) /\ exists k', k' <= k + cost name /\ steady ign fs k' (s_words (snd c)).

Lemma clean_copy_wsim tr (h : heap) ws p s ign fs k : cstr_at h p s -> bounded h -> longer h -> steady ign fs k ws -> k + cost s <= spent tr ->
  wsim (fun _ => tidied ign fs k h s) tr (w_clean_copy literal sequence p (o_platform o) (mkStore h ws))
    (talking (sequence_run_says (o_platform o) (o_sequence_to_use o) (if is_protected s then None else Some s))).
Proof.
  intros C Bd Lo St Sp. destruct (Z.le_gt_cases (Z.of_nat (spent tr)) int_max) as [Few|Many]; [|now apply wsim_over].
  pose proof (cstr_at_nonul _ _ _ C) as N. unfold w_clean_copy.
  apply (wsim_strdup _ _ _ Lim _ _ s); [exact C|exact (bounded_fits _ _ _ Bd C)|now apply longer_short|]. intros Bd1.
  set (h1 := h ++ [Some (map Some s ++ [Some NUL])]) in *.
  assert (Lo1 : longer h1) by now apply longer_app.
  assert (C1 : cstr_at h1 (mkPtr (length h) 0) s) by now apply cstr_string.
  eapply wsim_mem; [exact (protected_ok _ _ _ C1)|]. cbv zeta.
  assert (Q : forall m : talk (option str), talking m = pbind (talking m) Ret).
  { intros m. rewrite talking_bind. unfold talking. now destruct (snd m). }
  rewrite Q. clear Q. unfold sbind at 1, inner at 1. rewrite Use. fold pf. destruct (is_protected s) eqn:P.
  - apply (wsim_sequence _ _ _ tr h1 _ _ _ _ (fun hold => sbind (sret tt) (fun _ => sret hold)) _ (none_steady h1 ws ign fs k Lo1 St) (sequence_none _ _ h1 Bd1) (longer_short _ Lo1)).
    + intros tr' q r s2 E. discriminate.
    + intros tr' n s2 E _ Eh Bd2 ->. apply wsim_ret. unfold tidied, cleaned. cbn [fst snd s_heap s_words] in *. splits; auto.
      * rewrite P. exists (Some (map Some s ++ [Some NUL]) :: repeat None n). rewrite Eh. unfold h1. rewrite <- app_assoc. split; [reflexivity|].
        rewrite live_cons, live_nones. reflexivity.
      * rewrite P. discriminate.
      * exists k. split; [lia|exact St].
  - apply (wsim_sequence _ _ _ tr h1 _ _ _ _ (fun hold => sbind (heapwise (free (mkPtr (length h) 0))) (fun _ => sret hold)) _
             (run_steady ign fs k ws h1 (mkPtr (length h) 0) s Lo1 St C1 (bounded_fits _ _ _ Bd1 C1) ltac:(lia)) (sequence_same Lim _ _ h1 _ s C1 (bounded_fits _ _ _ Bd1 C1)) (longer_short _ Lo1)).
    + intros tr' q r [h2 ws2] E _ (i & j & rest & Eh & -> & Nr & Bd2) (Lo2 & St2). cbn [s_heap s_words] in *. subst h2.
      assert (Bd3 : bounded (h ++ None :: repeat None i ++ Some (map Some r ++ Some NUL :: rest) :: repeat None j)).
      { unfold h1 in Bd2. rewrite <- app_assoc in Bd2. exact (bounded_drop _ _ _ Bd2). }
      unfold h1. rewrite <- app_assoc. cbn [app].
      eapply wsim_mem; [apply free_at|]. apply wsim_ret. unfold tidied, cleaned. cbn [fst snd s_heap s_words]. rewrite sequence_result in E. splits; auto.
      * exists (None :: repeat None i), (Some (map Some r ++ Some NUL :: rest)), (repeat None j). splits; auto.
        -- unfold h1. rewrite !app_length. cbn [length]. rewrite repeat_length. f_equal. lia.
        -- exists rest. auto.
        -- rewrite live_cons, !live_nones. reflexivity.
      * rewrite Use. exact E.
      * now apply longer_app.
      * eauto.
    + intros tr' n [h2 ws2] E _ Eh Bd2 (Lo2 & St2). cbn [s_heap s_words] in *. subst h2. unfold h1. rewrite <- app_assoc. cbn [app]. eapply wsim_mem; [apply free_at|]. apply wsim_ret.
      unfold tidied, cleaned. cbn [fst snd s_heap s_words]. rewrite sequence_result in E. splits; auto.
      * unfold h1 in Bd2. rewrite <- app_assoc in Bd2. exact (bounded_drop _ _ _ Bd2).
      * exists (None :: repeat None n). split; [reflexivity|]. rewrite P, live_cons, live_nones. reflexivity.
      * intros _. rewrite Use. exact E.
      * now apply longer_app.
      * eauto.
Qed.

(** ** parse_file *)

Definition file_did (ign fs : option filelist) (k : nat) (h : heap) (filename : str) (c : ptr * store_t) (r : str) : Prop :=
  file_done o h filename (fst c, s_heap (snd c)) r /\ longer (s_heap (snd c)) /\ exists k', k' <= k + cost (snd (split_path filename)) /\ steady ign fs k' (s_words (snd c)).

Lemma parse_file_wsim tr (h : heap) ws p s ign fs k : cstr_at h p s -> bounded h -> longer h -> steady ign fs k ws -> k + cost (snd (split_path s)) <= spent tr ->
  wsim (fun _ => file_did ign fs k h s) tr (w_parse_file literal sequence p o (mkStore h ws)) (parse_file s o).
Proof.
  intros C Bd Lo St Spe. pose proof (cstr_at_nonul _ _ _ C) as N. pose proof (bounded_fits _ _ _ Bd C) as F.
  unfold w_parse_file, parse_file. destruct (split_path s) as [dir base] eqn:Sp. cbn [snd] in Spe.
  eapply wsim_mem; [exact (strlen_ok _ _ _ C)|]. cbv zeta. rewrite (size_t_small _ F).
  apply (wsim_malloc _ _ _ Lim); [now apply longer_short|]. intros Bd1.
  assert (Ln : N.to_nat (strlen s + 1) = length s + 1) by (unfold strlen; lia). rewrite Ln in *.
  set (old := mkPtr (length h) 0).
  set (oldb := Some (map Some s ++ [Some NUL]) : option (list cell)).
  set (h1 := h ++ [oldb]). assert (Lo1 : longer h1) by now apply longer_app.
  assert (E1 : c_memcpy old p (length s + 1) (h ++ [Some (repeat None (length s + 1))]) = done (tt, h1)).
  { unfold old. rewrite memcpy_ok; [|now apply cstr_old|apply cstr_live in C; cbn; lia].
    destruct (write_two h (length s + 1) (s ++ [NUL]) [] [] ltac:(rewrite app_length; cbn; lia)) as [W _].
    rewrite (mbind_done _ _ _ _ _ W). cbn [length repeat]. rewrite app_nil_r. unfold h1, oldb. rewrite map_app. reflexivity. }
  eapply wsim_mem; [exact E1|]. clear E1.
  assert (C1 : cstr_at h1 old s) by now apply cstr_string.
  assert (Bd1' : bounded h1).
  { revert Bd1. unfold bounded, h1, oldb. rewrite !size_app, !size_one, repeat_length, app_length, map_length. auto. }
  destruct (strrchr_ok "/"%byte h1 old s C1 ltac:(discriminate)) as [E2 _]. eapply wsim_mem; [exact E2|]. clear E2. cbv zeta.
  pose proof (strrchr_split s) as X. apply split_path_spec in Sp as Sp'. destruct Sp' as (Es & Nb & _).
  set (base_ptr := match option_map _ _ with Some p => plus p 1 | None => old end).
  assert (Eb : base_ptr = plus old (length dir)).
  { unfold base_ptr. destruct (strrchr s "/"%byte) as [[before ext]|]; cbn [option_map].
    - destruct X as [b X]. rewrite Sp in X. injection X as -> ->. unfold plus. cbn [p_block p_off]. rewrite app_length, rev_length. reflexivity.
    - rewrite Sp in X. injection X as -> ->. unfold plus. cbn [length]. rewrite Nat.add_0_r. reflexivity. }
  rewrite Eb. clear base_ptr Eb X.
  assert (Cb : cstr_at h1 (plus old (length dir)) base) by (apply cstr_skip; now rewrite <- Es).
  eapply wsim_bind; [exact (clean_copy_wsim tr h1 ws _ base ign fs k Cb Bd1' Lo1 St Spe)|].
  intros tr' [[work|] [h2 ws2]] [r|] ([Bd2 H] & Lo2 & k' & Lk & St2); cbn [fst snd s_heap s_words] in *; try contradiction.
  2:{ destruct H as ((a & -> & La) & Pr). apply wsim_ret. unfold file_did. cbn [fst snd s_heap s_words]. rewrite Sp. cbn [snd]. splits; [|exact Lo2|eauto]. split; [exact Bd2|]. cbn [fst snd]. exists [], oldb, a. unfold h1. rewrite <- app_assoc, app_nil_r. splits; auto.
      - exists []. auto.
      - rewrite La. unfold lost_by_file. rewrite Sp. cbn [snd]. cbn [live filter length Nat.add]. destruct (is_protected base); [reflexivity|]. now rewrite Pr. }
  destruct H as (H & Pr & Er). pose proof (hands_cstr _ _ _ _ _ H) as Cw.
  assert (Cb2 : cstr_at h2 (plus old (length dir)) base) by (destruct H as (a & b & c & -> & _); now apply cstr_old).
  assert (Co2 : cstr_at h2 old s) by (destruct H as (a & b & c & -> & _); now apply cstr_old).
  eapply wsim_mem; [exact (equal_ok _ _ _ _ _ Cb2 Cw)|].
  destruct (str_eqb base r) eqn:Eq.
  { destruct H as (a & b & c & -> & -> & (rest & -> & Nr) & L). apply wsim_ret. unfold file_did. cbn [fst snd s_heap s_words]. rewrite Sp. cbn [snd]. splits; [|exact Lo2|eauto]. split; [exact Bd2|]. cbn [fst snd].
    exists [], oldb, (a ++ Some (map Some r ++ Some NUL :: rest) :: c). unfold h1. rewrite <- !app_assoc, app_nil_r. splits; auto.
    - exists []. auto.
    - unfold lost_by_file. rewrite Sp. cbn [snd]. rewrite Pr, Er, Eq. rewrite live_app, live_cons. cbn [is_live live filter length]. lia. }
  assert (Lost : lost_by_file o s = 0) by (unfold lost_by_file; rewrite Sp; cbn [snd]; now rewrite Pr, Er, Eq).
  pose proof (cstr_at_nonul _ _ _ Cw) as Nr.
  eapply wsim_mem; [exact (strlen_ok _ _ _ Cw)|].
  assert (Ld : p_off (plus old (length dir)) - p_off old = length dir) by (cbn; lia). rewrite Ld.
  assert (Sz : size_t (N.of_nat (length dir) + strlen r + 1) = N.of_nat (length dir + (length r + 1))).
  { apply cstr_size in Cw, Co2. rewrite Es, app_length in Co2. unfold bounded, limit in Bd2. rewrite size_t_small; unfold strlen; lia. }
  rewrite Sz. clear Sz. apply (wsim_malloc _ _ _ Lim); [now apply longer_short|]. intros Bd3. rewrite Nnat.Nat2N.id in *.
  set (new := mkPtr (length h2) 0).
  destruct (write_two h2 (length dir + (length r + 1)) dir (r ++ [NUL]) []) as [W1 W2]; [rewrite app_length; reflexivity|].
  assert (Lv : p_block old < length h2) by (exact (cstr_live _ _ _ Co2)).
  assert (Lw : p_block work < length h2) by (exact (cstr_live _ _ _ Cw)).
  eapply wsim_mem.
  { unfold new. rewrite (strncpy_ok dir base); [|rewrite <- Es; now apply cstr_old|cbn in *; lia]. rewrite (mbind_done _ _ _ _ _ W1). reflexivity. }
  eapply wsim_mem.
  { unfold c_strcpy. erewrite mbind_done; [|eapply read_ok, cstr_old, Cw]. unfold new, plus. cbn [p_block p_off Nat.add]. rewrite (mbind_done _ _ _ _ _ W2). reflexivity. }
  rewrite app_assoc, map_app. cbn [map]. set (newb := Some (map Some (dir ++ r) ++ [Some NUL]) : option (list cell)).
  assert (Nn : nonul (dir ++ r)).
  { intros I. apply in_app_iff in I. destruct I as [I|I]; [|now apply Nr]. apply N. rewrite Es. apply in_app_iff. now left. }
  destruct (hands_free _ _ _ _ _ [newb] H) as (a & Ef & La & Le & Ls). eapply wsim_mem; [exact Ef|]. clear Ef.
  assert (Bd4 : bounded ((h1 ++ a) ++ [newb])).
  { revert Bd3. unfold bounded, newb. rewrite !(size_app _ [_]), !size_one, repeat_length, app_length, map_length, app_length. cbn [length]. lia. }
  assert (C4o : cstr_at (h1 ++ a ++ [newb]) old s) by now apply cstr_old.
  assert (C4n : cstr_at (h1 ++ a ++ [newb]) new (dir ++ r)).
  { unfold new. rewrite <- Le, app_assoc. now apply cstr_string. }
  assert (Keep : free new (h1 ++ a ++ [newb]) = done (tt, h1 ++ a ++ [None])).
  { unfold new. rewrite <- Le, !app_assoc. apply free_at. }
  assert (Lo4 : forall t, longer (h1 ++ t)) by (intros t; now apply longer_app).
  assert (Fin : forall tr, wsim (fun _ => file_did ign fs k h s) tr (sbind (heapwise (free new)) (fun _ => sret old) (mkStore (h1 ++ a ++ [newb]) ws2)) (Ret s)).
  { intros tr1. eapply wsim_mem; [exact Keep|]. apply wsim_ret. unfold file_did. cbn [fst snd s_heap s_words]. rewrite Sp. cbn [snd]. splits; [|apply Lo4|eauto]. split; cbn [fst snd].
    - rewrite app_assoc. exact (bounded_drop _ _ _ Bd4).
    - rewrite Lost. exists [], oldb, (a ++ [None]). unfold h1. rewrite <- !app_assoc, app_nil_r. splits; auto.
      + exists []. auto.
      + rewrite live_app, La. reflexivity. }
  eapply wsim_mem; [exact (read_ok _ _ _ C4o)|]. apply wsim_sys. intros st _. destruct st as [st|msg]; [|apply Fin].
  eapply wsim_mem; [exact (read_ok _ _ _ C4n)|]. apply wsim_sys. intros st' _.
  destruct (match st' with inl x => is_other_file st x | inr _ => false end).
  { eapply wsim_mem; [exact (read_ok _ _ _ C4o)|]. eapply wsim_mem; [exact (read_ok _ _ _ C4n)|]. apply wsim_sys. intros [] _. apply Fin. }
  eapply wsim_bind with (R := fun _ (c : unit * store_t) (_ : unit) => snd c = mkStore (h1 ++ a ++ [newb]) ws2).
  { destruct ((0 <? o_verbose o)%N || o_dry_run o)%bool; [|now apply wsim_ret].
    eapply wsim_mem; [exact (read_ok _ _ _ C4o)|]. eapply wsim_mem; [exact (read_ok _ _ _ C4n)|]. apply wsim_call. intros [] _. now apply wsim_ret. }
  intros tr1 [[] h4] [] E4. cbn [snd] in E4. subst h4. destruct (o_dry_run o); [apply Fin|].
  eapply wsim_mem; [exact (read_ok _ _ _ C4o)|]. eapply wsim_mem; [exact (read_ok _ _ _ C4n)|]. apply wsim_sys. intros [msg|] _.
  { eapply wsim_mem; [exact (read_ok _ _ _ C4o)|]. eapply wsim_mem; [exact (read_ok _ _ _ C4n)|]. apply wsim_sys. intros [] _. apply Fin. }
  eapply wsim_mem. { unfold h1, old, oldb. rewrite <- app_assoc. apply free_at. }
  apply wsim_ret. unfold file_did. cbn [fst snd s_heap s_words]. rewrite Sp. cbn [snd]. splits; [|now apply longer_app|eauto]. split; cbn [fst snd].
  - revert Bd4. unfold h1. rewrite <- !app_assoc. apply bounded_drop.
  - rewrite Lost. exists (None :: a), newb, []. splits; auto.
    + unfold new. rewrite <- Le. unfold h1. rewrite !app_length. cbn [length]. f_equal. lia.
    + exists []. auto.
    + rewrite live_cons, La. reflexivity.
Qed.



(** ** parse_dir *)

Lemma lookups_app fl a b : lookups pf fl (a ++ b) = lookups pf fl a + lookups pf fl b.
Proof. induction a as [|x a IH]; cbn [app lookups]; lia. Qed.

Lemma spent_app tr more : spent (tr ++ more) = spent tr + lookups pf (s_filters q0) (names_in (p_schar pf) more).
Proof. unfold spent, names_in. rewrite flat_map_app, lookups_app. lia. Qed.

Lemma spent_lstat tr path r : spent (tr ++ [Ev (Lstat path) r]) = spent tr + cost (snd (split_path path)).
Proof. rewrite spent_app. unfold names_in, names_of, cost. cbn [flat_map app lookups]. lia. Qed.

Definition kept (fs : option filelist) (tr : list event) (s : store_t) (ign : option filelist) : Prop :=
  longer (s_heap s) /\ exists k, k <= spent tr /\ steady ign fs k (s_words s).

Definition dir_did (fs : option filelist) (tr0 : list event) (h : heap) (tr : list event) (c : unit * store_t) (r : option filelist) : Prop :=
  dir_done tr0 h tr (r, s_heap (snd c)) r /\ kept fs tr (snd c) r.

Definition loop_did (fs : option filelist) (tr0 : list event) (h : heap) (size : nat) (k : heap) (tr : list event) (c : unit * store_t) (r : option filelist) : Prop :=
  loop_done tr0 h size k tr (r, s_heap (snd c)) r /\ kept fs tr (snd c) r.

Lemma kept_on fs tr more h h' ws ign : kept fs tr (mkStore h ws) ign -> longer h' -> kept fs (tr ++ more) (mkStore h' ws) ign.
Proof. intros (_ & k & Lk & St) Lo. split; [exact Lo|]. exists k. split; [rewrite spent_app; lia|exact St]. Qed.

Lemma dir_wsim fs : forall fuel,
  (forall tr (h : heap) ws p s ign, cstr_at h p s -> bounded h -> kept fs tr (mkStore h ws) ign ->
     wsim (dir_did fs tr h) tr (w_parse_dir literal sequence ignore fuel o p (mkStore h ws)) (parse_dir fuel o s ign)) /\
  (forall tr (h k : heap) ws p s cells handle st ign, cstr_at h p s -> length cells = length s + 1024 -> bounded (h ++ Some cells :: k) -> kept fs tr (mkStore h ws) ign ->
     wsim (loop_did fs tr h (length s + 1024) k) tr
       (w_dir_loop literal sequence ignore fuel o p (mkPtr (length h) 0) (strlen s + 1024) handle st (mkStore (h ++ Some cells :: k) ws))
       (dir_loop fuel o s handle st ign)).
Proof.
  induction fuel as [|fuel [IHd IHl]]; (split; [intros tr h ws p s ign C Bd Ke|intros tr h k ws p s cells handle st ign C Lc Bd Ke]); [apply wsim_stop..| |].
  - pose proof (proj1 Ke) as Lo. cbn [s_heap] in Lo. cbn [w_parse_dir parse_dir]. eapply wsim_mem; [exact (read_ok _ _ _ C)|]. apply wsim_sys. intros [st|m] _.
    2:{ apply wsim_ret. split; [|exact (kept_on _ _ _ _ _ _ _ Ke Lo)]. unfold dir_done. cbn [fst snd s_heap]. splits; auto. exists []. rewrite app_nil_r. split; [reflexivity|].
        unfold lost_between. rewrite opened_app, asked_app. cbn. lia. }
    destruct (isdir st); cbn [negb].
    2:{ apply wsim_ret. split; [|exact (kept_on _ _ _ _ _ _ _ Ke Lo)]. unfold dir_done. cbn [fst snd s_heap]. splits; auto. exists []. rewrite app_nil_r. split; [reflexivity|].
        unfold lost_between. rewrite opened_app, asked_app. cbn. lia. }
    eapply wsim_mem; [exact (strlen_ok _ _ _ C)|]. cbv zeta.
    assert (Sz : size_t (strlen s + 1024) = (strlen s + 1024)%N).
    { apply cstr_size in C. unfold bounded, limit in Bd. apply size_t_small. unfold strlen. lia. }
    rewrite Sz. apply (wsim_malloc _ _ _ Lim); [now apply longer_short|]. intros Bd1. eapply wsim_mem; [exact (read_ok _ _ _ (cstr_old _ _ _ _ C))|].
    apply wsim_sys. intros [handle|emfile message] _.
    + eapply wsim_bind.
      { apply (IHl _ h [] ws p s); [exact C|rewrite repeat_length; unfold strlen; lia|exact Bd1|apply (kept_on _ _ _ h); [apply (kept_on _ _ _ h); auto|exact Lo]]. }
      intros tr' [[] [h' ws']] r ((_ & Bd' & cells & a & Eh & Lc & Lb) & Ke'). cbn [fst snd s_heap] in *. subst h'. apply wsim_sys. intros [] _. apply wsim_ret.
      split; [|eapply kept_on; [exact Ke'|exact (proj1 Ke')]]. unfold dir_done. cbn [fst snd s_heap]. splits; auto. eexists. split; [reflexivity|]. revert Lb. unfold lost_between.
      rewrite live_cons, !opened_app, !asked_app. cbn [is_live]. cbn. lia.
    + apply wsim_sys. intros [] _. eapply wsim_mem; [apply free_at|]. destruct emfile; [apply wsim_stop|]. apply wsim_ret.
      split; [|eapply kept_on; [eapply kept_on; [eapply kept_on; [exact Ke|exact Lo]|exact Lo]|now apply longer_app]]. unfold dir_done. cbn [fst snd s_heap]. splits; auto; [exact (bounded_drop _ _ _ Bd1)|]. eexists. split; [reflexivity|].
      unfold lost_between. rewrite !opened_app, !asked_app. cbn. lia.
  - pose proof (proj1 Ke) as Lo. cbn [s_heap] in Lo. cbn [w_dir_loop dir_loop]. apply wsim_sys. intros [d|] Fd; cbn [fair] in Fd.
    2:{ apply wsim_ret. split; [|eapply kept_on; [exact Ke|now apply longer_app]]. unfold loop_done. cbn [fst snd s_heap]. splits; auto. exists cells, k. splits; auto.
        unfold lost_between. rewrite !opened_app, !asked_app. cbn. lia. }
    set (tr1 := tr ++ _).
    destruct Ke as (_ & kk & Lk & St). cbn [s_words] in St.
    destruct (ignore_steady d ign fs kk ws (h ++ Some cells :: k) (longer_app _ _ Lo) St) as (ignored & ign1 & ws1 & Ei & Ei' & St1).
    eapply wsim_inner; [exact Ei|]. rewrite Ei'. cbn [lift pbind]. cbv beta iota. clear Ei Ei' St.
    assert (Lk1 : kk <= spent tr1) by (unfold tr1; rewrite spent_app; lia).
    assert (E1 : opened_in tr1 = opened_in tr /\ asked_in tr1 = asked_in tr).
    { unfold tr1. rewrite opened_app, asked_app. cbn. lia. }
    clearbody tr1. destruct E1 as [E1 E1'].
    assert (Loop : forall tr3 (k3 : heap) ws3 cells3 st3 ign3, length cells3 = length s + 1024 -> bounded (h ++ Some cells3 :: k3) ->
       lost_between tr tr3 (live k) (live k3) -> kept fs tr3 (mkStore h ws3) ign3 ->
       wsim (loop_did fs tr h (length s + 1024) k) tr3
         (w_dir_loop literal sequence ignore fuel o p (mkPtr (length h) 0) (strlen s + 1024) handle st3 (mkStore (h ++ Some cells3 :: k3) ws3)) (dir_loop fuel o s handle st3 ign3)).
    { intros tr3 k3 ws3 cells3 st3 ign3 L3 Bd3 Lo3 Ke3. eapply wsim_weaken; [apply (IHl tr3 h k3 ws3 p s); auto|].
      intros tr4 [[] [h4 ws4]] r ((_ & Bd4 & cells4 & a & Eh & L4 & Lo4) & Ke4). split; [|exact Ke4]. unfold loop_done. splits; auto. exists cells4, a. splits; auto.
      unfold lost_between in *. lia. }
    destruct ignored; [apply Loop; auto; [unfold lost_between; lia|split; [exact Lo|eauto]]|].
    eapply wsim_mem; [exact (read_ok _ _ _ (cstr_old _ _ _ _ C))|].
    pose proof (cstr_at_nonul _ _ _ C) as Ns.
    assert (W : exists cells1, c_snprintf (mkPtr (length h) 0) (strlen s + 1024) (s ++ bs "/" ++ d) (h ++ Some cells :: k) = done (tt, h ++ Some cells1 :: k) /\
              length cells1 = length s + 1024 /\ exists rest, cells1 = map Some (entry_path s d) ++ Some NUL :: rest).
    { unfold c_snprintf. replace (N.to_nat (strlen s + 1024) - 1) with (length s + 1023) by (unfold strlen; lia). fold (entry_path s d).
      assert (Le : length (entry_path s d) <= length s + 1023) by apply firstn_le_length.
      eexists. split.
      - rewrite (mbind_done _ _ _ _ _ (write_over (entry_path s d ++ [NUL]) (h ++ Some cells :: k) (length h) 0 cells ltac:(rewrite nth_error_app2, Nat.sub_diag; [reflexivity|lia]) ltac:(rewrite app_length; cbn [length]; lia))).
        replace (length h) with (length h + 0) by lia. rewrite set_app_r. reflexivity.
      - cbn [firstn app]. split.
        + rewrite app_length, map_length, skipn_length. rewrite app_length. cbn [length]. lia.
        + rewrite map_app, <- app_assoc. cbn [map app]. eauto. }
    destruct W as (cells1 & W & L1 & rest1 & Ec1). eapply wsim_mem; [exact W|]. clear W.
    assert (Bd1 : bounded (h ++ Some cells1 :: k)).
    { revert Bd. unfold bounded. rewrite !size_app, !size_cons. cbn [block_size]. now rewrite Lc, L1. }
    assert (C1 : cstr_at (h ++ Some cells1 :: k) (mkPtr (length h) 0) (entry_path s d)).
    { rewrite Ec1. apply cstr_string. now apply nonul_path. }
    eapply wsim_mem; [exact (read_ok _ _ _ C1)|]. apply wsim_sys. intros st' _. cbv zeta. set (st1 := match st' with inl x => x | inr _ => st end).
    set (tr2 := tr1 ++ _). assert (Lk2 : kk + cost (snd (split_path (entry_path s d))) <= spent tr2) by (unfold tr2; rewrite spent_lstat; lia). assert (E2 : opened_in tr2 = opened_in tr /\ asked_in tr2 = asked_in tr + 1).
    { unfold tr2. rewrite opened_app, asked_app. cbn. lia. }
    clearbody tr2 st1. destruct E2 as [E2 E2'].
    eapply wsim_bind with (R := loop_did fs tr h (length s + 1024) k).
    2:{ intros tr3 [[] [h3 ws3]] r ((_ & Bd3 & cells3 & k3 & Eh & L3 & Lo3) & (_ & Ke3)). cbn [fst snd s_heap s_words] in *. subst h3. apply Loop; auto. now split. }
    assert (File : forall (f : ptr -> sprog unit) g,
       (forall tr3 q r a b c ws3, Forall (fun e => match e with Ev c _ => opens_nothing c end) tr3 -> bounded (h ++ Some cells1 :: k ++ a ++ b :: c) ->
          q = mkPtr (length (h ++ Some cells1 :: k ++ a)) 0 -> holds b r -> live a + live c <= 1 ->
          (forall more, kept fs (tr2 ++ tr3) (mkStore (h ++ more) ws3) ign1) ->
          wsim (loop_did fs tr h (length s + 1024) k) (tr2 ++ tr3) (f q (mkStore (h ++ Some cells1 :: k ++ a ++ b :: c) ws3)) (g r)) ->
       wsim (loop_did fs tr h (length s + 1024) k) tr2 (sbind (w_parse_file literal sequence (mkPtr (length h) 0) o) f (mkStore (h ++ Some cells1 :: k) ws1)) (pbind (parse_file (entry_path s d) o) g)).
    { intros f g K. eapply wsim_bind; [apply wsim_only; [apply (parse_file_wsim tr2 _ ws1 _ _ ign1 fs kk C1 Bd1 (longer_app _ _ Lo) St1 Lk2)|apply parse_file_opens]|].
      intros tr3 [q [h3 ws3]] r [((Bd3 & a & b & c & Eh & Eq & Hr & Hl) & _ & k' & Lk' & St3) (more & -> & Fm)]. cbn [fst snd s_heap s_words] in *. subst h3.
      rewrite <- app_assoc in *. cbn [app] in *. apply K; auto; [pose proof (lost_file o (entry_path s d)); lia|]. intros t. split; [now apply longer_app|]. exists k'. split; [rewrite spent_app; lia|exact St3]. }
    destruct (isdir st1); [|destruct (isreg st1 || o_special o)%bool].
    + apply File. intros tr3 q r a b c ws3 F3 Bd3 -> Hb Hl Ke3. apply opened_none in F3.
      set (h3 := h ++ Some cells1 :: k ++ a ++ b :: c) in *.
      set (Q := mkPtr (length (h ++ Some cells1 :: k ++ a)) 0).
      assert (E3 : h3 = (h ++ Some cells1 :: k ++ a) ++ b :: c) by (unfold h3; rewrite <- app_assoc; cbn [app]; rewrite <- app_assoc; reflexivity).
      assert (Fr : forall x, free Q (h3 ++ x) = done (tt, h ++ Some cells1 :: (k ++ a ++ None :: c ++ x))).
      { intros x. rewrite E3, <- app_assoc. destruct Hb as (rest & -> & _). cbn [app]. unfold Q. rewrite free_at.
        rewrite <- app_assoc. cbn [app]. rewrite <- app_assoc. reflexivity. }
      assert (After : forall tr4 x ws4 ign4, bounded (h3 ++ x) -> lost_between (tr2 ++ tr3) tr4 0 (live x) -> kept fs tr4 (mkStore (h3 ++ x) ws4) ign4 ->
        wsim (loop_did fs tr h (length s + 1024) k) tr4 (sbind (heapwise (free Q)) (fun _ => sret tt) (mkStore (h3 ++ x) ws4)) (Ret ign4)).
      { intros tr4 x ws4 ign4 Bx Lx (_ & Ke4). eapply wsim_mem; [exact (Fr x)|]. apply wsim_ret. split; [|split; [now apply longer_app|exact Ke4]]. unfold loop_done. cbn [fst snd s_heap]. splits; auto.
        - rewrite E3, <- app_assoc in Bx. apply bounded_drop in Bx. rewrite <- app_assoc in Bx. cbn [app] in Bx. now rewrite <- app_assoc in Bx.
        - eexists _, _. splits; [reflexivity|exact L1|]. revert Lx. unfold lost_between. rewrite !live_app, live_cons, live_app. cbn [is_live].
          rewrite opened_app, asked_app. lia. }
      assert (Cq : cstr_at h3 Q r) by (rewrite E3; destruct Hb as (rest & -> & Nr); now apply cstr_string).
      eapply wsim_then with (R := dir_did fs (tr2 ++ tr3) h3).
      * destruct (o_recurse o); [exact (IHd _ _ _ _ _ _ Cq Bd3 (Ke3 _))|]. apply wsim_ret. split; [|exact (Ke3 _)]. unfold dir_done. cbn [fst snd s_heap]. splits; auto. exists []. rewrite app_nil_r. split; [reflexivity|].
        unfold lost_between. cbn. lia.
      * intros tr4 [[] [h4 ws4]] r4 ((_ & Bd4 & x & Eh & Lb) & Ke4). cbn [fst snd s_heap] in *. subst h4. now apply After.
    + apply File. intros tr3 q r a b c ws3 F3 Bd3 -> (rest & -> & Nr) Hl Ke3. apply opened_none in F3.
      assert (Eh : forall b : option (list cell), h ++ Some cells1 :: k ++ a ++ b :: c = (h ++ Some cells1 :: k ++ a) ++ b :: c).
      { intros b. rewrite <- app_assoc. cbn [app]. now rewrite <- app_assoc. }
      rewrite Eh in *. eapply wsim_mem; [apply free_at|]. apply wsim_ret. split; [|rewrite <- Eh; apply Ke3]. unfold loop_done. cbn [fst snd s_heap]. splits; auto; [exact (bounded_drop _ _ _ Bd3)|].
      rewrite <- Eh.
      eexists _, _. splits; [reflexivity|exact L1|]. unfold lost_between. rewrite !live_app, live_cons. cbn [is_live]. rewrite opened_app, asked_app. lia.
    + apply wsim_ret. split; [|split; [now apply longer_app|exists kk; split; [lia|exact St1]]]. unfold loop_done. cbn [fst snd s_heap]. splits; auto. exists cells1, k. splits; auto. unfold lost_between. lia.
Qed.


(** ** The arguments *)

Definition argument_did (fs : option filelist) (tr0 : list event) (h : heap) (tr : list event) (c : unit * store_t) (r : option filelist) : Prop :=
  arguments_done tr0 h tr (r, s_heap (snd c)) r /\ kept fs tr (snd c) r.

Lemma argument_wsim fuel fs tr (h : heap) ws p s ign : cstr_at h p s -> bounded h -> kept fs tr (mkStore h ws) ign ->
  wsim (argument_did fs tr h) tr (w_process_argument literal sequence ignore fuel o p (mkStore h ws)) (process_argument fuel o s ign).
Proof.
  intros C Bd Ke. pose proof (proj1 Ke) as Lo. cbn [s_heap] in Lo. unfold w_process_argument, process_argument. eapply wsim_mem; [exact (read_ok _ _ _ C)|].
  eapply wsim_bind with (R := fun tr' (c : unit * store_t) (_ : unit) => snd c = mkStore h ws /\ opened_in tr' = opened_in tr /\ asked_in tr' = asked_in tr /\ spent tr <= spent tr').
  { destruct (0 <? o_verbose o)%N; [|now apply wsim_ret]. apply wsim_call. intros [] _. apply wsim_ret. cbn [snd]. rewrite opened_app, asked_app, spent_app. cbn. splits; auto; lia. }
  intros tr1 [[] s1] [] (E0 & E1 & E2 & Sp1). cbn [snd] in E0. subst s1. destruct Ke as (_ & k & Lk & St). cbn [s_words] in St.
  apply wsim_sys. intros [st|m] _.
  2:{ apply wsim_sys. intros [] _. apply wsim_ret. split; [|split; [exact Lo|exists k; split; [rewrite !spent_app; lia|exact St]]].
      unfold arguments_done. cbn [fst snd s_heap]. splits; auto. exists []. rewrite app_nil_r, !opened_app, !asked_app. cbn. splits; auto; lia. }
  set (tr2 := tr1 ++ _). assert (E3 : opened_in tr2 = opened_in tr /\ asked_in tr2 = asked_in tr + 1).
  { unfold tr2. rewrite opened_app, asked_app. cbn. lia. }
  assert (Sp2 : k + cost (snd (split_path s)) <= spent tr2) by (unfold tr2; rewrite spent_lstat; lia).
  clearbody tr2. destruct E3 as [E3 E4].
  assert (Pf := wsim_only _ _ opens_nothing _ tr2 _ _ (parse_file_wsim tr2 h ws p s ign fs k C Bd Lo St Sp2) (parse_file_opens s o)).
  destruct (isdir st); [|destruct (isreg st || o_special o)%bool].
  - eapply wsim_bind; [exact Pf|]. intros tr3 [q [h3 ws3]] r [([Bd3 H] & Lo3 & k3 & Lk3 & St3) (more & -> & Fm)]. cbn [fst snd s_heap s_words] in *. apply opened_none in Fm.
    pose proof (hands_cstr _ _ _ _ _ H) as Cq.
    eapply wsim_then; [apply (proj1 (dir_wsim fs fuel) _ h3 ws3 q r ign Cq Bd3); split; [exact Lo3|exists k3; split; [rewrite spent_app; lia|exact St3]]|].
    intros tr4 [[] [h4 ws4]] r4 ((_ & Bd4 & x & Eh & Lb) & _ & Ke4). cbn [fst snd s_heap s_words] in *. subst h4.
    destruct (hands_free _ _ _ _ _ x H) as (a & Ef & La & Le & Ls). eapply wsim_mem; [exact Ef|]. apply wsim_ret.
    split; [|split; [now apply longer_app|exact Ke4]].
    unfold arguments_done. cbn [fst snd s_heap]. splits; auto.
    + revert Bd4. unfold bounded. rewrite app_assoc, !(size_app _ x). lia.
    + exists (a ++ x). split; [reflexivity|]. rewrite live_app, La. pose proof (lost_file o s). revert Lb. unfold lost_between. rewrite opened_app, asked_app. lia.
  - eapply wsim_bind; [exact Pf|]. intros tr3 [q [h3 ws3]] r [([Bd3 (a & b & c & E5 & E6 & (rest & -> & Nr) & L)] & Lo3 & k3 & Lk3 & St3) (more & -> & Fm)]. cbn [fst snd s_heap s_words] in *. subst h3. apply opened_none in Fm.
    apply wsim_ret. split; [|split; [exact Lo3|exists k3; split; [rewrite spent_app; lia|exact St3]]].
    unfold arguments_done. cbn [fst snd s_heap]. splits; auto. exists (a ++ Some (map Some r ++ Some NUL :: rest) :: c). split; [reflexivity|].
    pose proof (lost_file o s). rewrite live_app, live_cons, opened_app, asked_app. cbn [is_live]. lia.
  - apply wsim_ret. split; [|split; [exact Lo|exists k; split; [lia|exact St]]]. unfold arguments_done. cbn [fst snd s_heap]. splits; auto. exists []. rewrite app_nil_r. cbn. splits; auto; lia.
Qed.

(** The files are those of the list from its cursor on; then the cursor is at the first. *)
Definition arguments_did (fs : option filelist) (tr0 : list event) (h : heap) (tr : list event) (c : unit * store_t) (r : option filelist) : Prop :=
  arguments_done tr0 h tr (r, s_heap (snd c)) r /\ exists fs', items fs' = items fs /\ cursor fs' = 0 /\ kept fs' tr (snd c) r.

Lemma skipn_onward (l : list str) i : match nth_error l i with Some x => skipn i l = x :: skipn (S i) l /\ onward l i = S i | None => skipn i l = [] end.
Proof.
  revert i. induction l as [|y l IH]; intros [|i]; cbn [nth_error skipn]; auto. specialize (IH i). unfold onward in *. cbn [length Nat.eqb]. destruct (nth_error l i); [|exact IH].
  destruct IH as (-> & IH). split; [reflexivity|]. now destruct (i =? length l).
Qed.

Lemma arguments_wsim fuel : forall n fs tr (h : heap) ws ign, length (items fs) - cursor fs < n -> cursor fs <= length (items fs) -> bounded h -> kept fs tr (mkStore h ws) ign ->
  wsim (arguments_did fs tr h) tr (w_process_arguments literal sequence ignore files n fuel o (mkStore h ws)) (process_arguments fuel o (skipn (cursor fs) (items fs)) ign).
Proof.
  induction n as [|n IH]; intros fs tr h ws ign Ln Lc Bd Ke; [lia|]. pose proof (proj1 Ke) as Lo. cbn [s_heap] in Lo. destruct Ke as (_ & k & Lk & St). cbn [s_words] in St.
  destruct (file_steady ign fs k ws h Lo St) as (f & x & fs' & ws' & Eg & _ & Sf & St' & Ex & Ei & Ec).
  cbn [w_process_arguments]. eapply wsim_inner; [exact Eg|]. pose proof (skipn_onward (items fs) (cursor fs)) as Sk. rewrite <- Ex in Sk.
  destruct f as [f|], x as [x|]; try contradiction.
  - destruct Sk as (-> & On). cbn [process_arguments]. apply proj2 in Sf.
    assert (Lt : cursor fs < length (items fs)) by (apply nth_error_Some; rewrite <- Ex; discriminate).
    eapply wsim_bind; [apply (argument_wsim fuel fs' tr h ws' f x ign Sf Bd); split; [exact Lo|exists k; split; [exact Lk|exact St']]|].
    intros tr1 [[] [h1 ws1]] r1 ((_ & Bd1 & a & E0 & L1 & L2) & Ke1). cbn [fst snd s_heap] in *. subst h1.
    rewrite <- On, <- Ec, <- Ei. eapply wsim_weaken; [apply (IH fs' tr1 (h ++ a) ws1 r1); auto; rewrite Ei, Ec, On; lia|].
    intros tr2 [[] [h2 ws2]] r2 ((_ & Bd2 & b & E & L3 & L4) & fs2 & Ei2 & Ec2 & Ke2). cbn [fst snd s_heap] in *. subst h2. split; [|exists fs2; rewrite Ei2, Ei; auto].
    unfold arguments_done. cbn [fst snd s_heap]. splits; auto. exists (a ++ b). rewrite app_assoc, live_app. splits; auto; lia.
  - rewrite Sk. cbn [process_arguments]. apply wsim_ret. split.
    + unfold arguments_done. cbn [fst snd s_heap]. splits; auto. exists []. rewrite app_nil_r. cbn. splits; auto; lia.
    + exists fs'. splits; auto.
      * rewrite Ec. unfold onward. symmetry in Ex. apply nth_error_None in Ex. now rewrite (proj2 (Nat.eqb_eq _ _)) by lia.
      * split; [exact Lo|]. exists k. split; [exact Lk|exact St'].
Qed.

(** ** Streams *)

Definition piece_did (ign fs : option filelist) (tr0 : list event) (h k : heap) (tr : list event) (c : unit * store_t) (r : unit) : Prop :=
  piece_done tr0 h k tr (tt, s_heap (snd c)) r /\ kept fs tr (snd c) ign.

Lemma print_wsim tr (h k h1 : heap) ws (cells : list cell) t work cleaned_name :
  string_cells t cells -> cleaned o (h ++ Some cells :: k) t (work, h1) cleaned_name ->
  wsim (fun tr' (c : unit * store_t) r => piece_done tr h k tr' (tt, s_heap (snd c)) r /\ s_words (snd c) = ws /\ spent tr <= spent tr') tr
    ((match work with
      | Some w =>
        let# text := heapwise (c_read w) in
        let# _ := sprint Stdout text in
        heapwise (free w)
      | None =>
        let# text := heapwise (c_read (mkPtr (length h) 0)) in
        sprint Stdout text
      end) (mkStore h1 ws))
    (print Stdout (match cleaned_name with Some w => w | None => t end)).
Proof.
  intros Hs [Bd1 H]. pose proof (string_cstr h k t cells Hs) as Ct. cbv beta in Ct.
  destruct work as [work|], cleaned_name as [r|]; try contradiction.
  - destruct H as (H & _ & _). pose proof (hands_cstr _ _ _ _ _ H) as Cw. eapply wsim_mem; [exact (read_ok _ _ _ Cw)|].
    apply wsim_call. intros [] _. destruct (hands_free _ _ _ _ _ [] H) as (a & Ef & La & _ & Ls). rewrite !app_nil_r in Ef.
    cbn [pbind]. unfold heapwise, inner. rewrite (bytes_done (free work) (mkStore h1 ws) tt _ Ef). apply wsim_ret. cbn [snd s_heap s_words]. splits; auto; [|rewrite spent_app; lia].
    split; [cbn [snd]; revert Bd1; unfold bounded; lia|]. exists cells, a. cbn [snd]. splits.
    + now rewrite <- app_assoc.
    + exact (string_size _ _ Hs).
    + rewrite !read_app. cbn. lia.
    + rewrite !dotted_app, La. lia.
  - destruct H as ((a & -> & La) & _). eapply wsim_mem; [exact (read_ok _ _ _ (cstr_old _ a _ _ Ct))|].
    apply wsim_call. intros [] _. apply wsim_ret. cbn [snd s_heap s_words]. splits; auto; [|rewrite spent_app; lia]. split; [exact Bd1|]. exists cells, a. cbn [snd]. splits.
    + now rewrite <- app_assoc.
    + exact (string_size _ _ Hs).
    + rewrite !read_app. cbn. lia.
    + rewrite !dotted_app, La. unfold dotted_in at 3. cbn [filter dots]. destruct (is_protected t); cbn; lia.
Qed.

Lemma bytes_says {A} (m : mem A) h ws said r : m h = (said, r) ->
  bytes m (mkStore h ws) = (said, match r with Ok (a, h') => Ok (a, mkStore h' ws) | UB w => UB w | Exit c => Exit c end).
Proof. intros E. unfold bytes. cbn [s_heap s_words]. rewrite E. destruct r as [[a h']|w|c]; unfold tbind, done, quietly; cbn; now rewrite ?app_nil_r. Qed.

Lemma loop_wsim ign fs : forall fuel tr (h k : heap) ws kk (cells : list cell) input, length cells = INLINE_BUF_SIZE -> bounded (h ++ Some cells :: k) -> longer h ->
  steady ign fs kk ws -> kk + lookups pf (s_filters q0) (pieces (p_schar pf) fuel input) <= spent tr ->
  wsim (piece_did ign fs tr h k) tr (w_inline_loop literal sequence fuel (o_platform o) (mkPtr (length h) 0) input (mkStore (h ++ Some cells :: k) ws)) (inline_loop fuel o input).
Proof.
  induction fuel as [|fuel IH]; intros tr h k ws kk cells input Lc Bd Lo St Sp; cbn [w_inline_loop inline_loop]; [apply wsim_stop|].
  pose proof (read_piece_ok h k (p_schar (o_platform o)) cells input Lc) as P. cbv beta zeta in P. cbn [pieces] in Sp. unfold pf in Sp at 2.
  unfold sbind at 1, heapwise at 1, inner at 1. destruct (read_piece (p_schar (o_platform o)) input) as [[p|]|w|n]; [| | |contradiction].
  - destruct P as (cells1 & Hs & E). rewrite (bytes_says _ _ _ _ _ E), talking_bind. cbn [fst snd lift pbind]. clear E. cbn [lookups] in Sp. fold (cost (pc_text p)) in Sp.
    assert (Bd1 : bounded (h ++ Some cells1 :: k)) by (refine (swap_cells h k cells cells1 _ Bd); rewrite (string_size _ _ Hs); exact Lc).
    assert (Rest : forall tr1, read_in tr1 = read_in tr -> dotted_in tr <= dotted_in tr1 -> spent tr <= spent tr1 -> wsim (piece_did ign fs tr h k) tr1
      ((let# work := w_clean_copy literal sequence (mkPtr (length h) 0) (o_platform o) in
        let# _ :=
          (match work with
           | Some w => let# text := heapwise (c_read w) in let# _ := sprint Stdout text in heapwise (free w)
           | None => let# text := heapwise (c_read (mkPtr (length h) 0)) in sprint Stdout text
           end) in
        let# _ := (if pc_newline p then sprint Stdout [newline] else sret tt) in
        w_inline_loop literal sequence fuel (o_platform o) (mkPtr (length h) 0) (pc_rest p)) (mkStore (h ++ Some cells1 :: k) ws))
      (let work := if is_protected (pc_text p) then None else Some (pc_text p) in
       let! cleaned := talking (sequence_run_says (o_platform o) (o_sequence_to_use o) work) in
       let! _ := print Stdout (match cleaned with Some w => w | None => pc_text p end) in
       let! _ := (if pc_newline p then print Stdout [newline] else Ret tt) in
       inline_loop fuel o (pc_rest p))).
    { intros tr1 R1 D1 S1. cbv zeta.
      pose proof (string_cstr h k _ cells1 Hs) as Ct. cbv beta zeta in Ct.
      eapply wsim_bind; [eapply (wsim_only _ _ reads_nothing _ tr1); [apply (clean_copy_wsim tr1 _ ws _ _ ign fs kk Ct Bd1 (longer_app _ _ Lo) St); lia|apply only_talking, Forall_forall; intros ? _; exact I]|].
      intros tr2 [work [h1 ws1]] r [(H & Lo1 & k1 & Lk1 & St1) (more & -> & Fm)]. cbn [fst snd s_heap s_words] in *. apply read_none in Fm.
      eapply wsim_bind; [exact (print_wsim (tr1 ++ more) h k h1 ws1 cells1 _ work r Hs H)|].
      intros tr2 [[] [h2 ws2]] [] ((Bd2 & cells2 & k2 & E2 & L2 & R2 & D2) & Ew & S2). cbn [snd s_heap s_words] in *. subst h2 ws2. rewrite read_app in R2. rewrite dotted_app in D2. rewrite spent_app in S2.
      eapply wsim_bind with (R := fun tr3 (c : unit * store_t) (_ : unit) => snd c = mkStore (h ++ Some cells2 :: k ++ k2) ws1 /\ read_in tr3 = read_in tr2 /\ dotted_in tr3 = dotted_in tr2 /\ spent tr2 <= spent tr3).
      { destruct (pc_newline p); [|now apply wsim_ret]. apply wsim_call. intros [] _. apply wsim_ret. cbn [snd]. rewrite read_app, dotted_app, spent_app. cbn. splits; auto; lia. }
      intros tr3 [[] h3] [] (E3 & R3 & D3 & S3). cbn [snd] in E3. subst h3.
      eapply wsim_weaken; [apply (IH tr3 h (k ++ k2) ws1 k1 cells2 (pc_rest p) L2 Bd2 Lo St1); lia|].
      intros tr4 [[] [h4 ws4]] [] ((Bd4 & cells4 & k4 & E4 & L4 & R4 & D4) & Ke4). cbn [snd s_heap] in E4, Bd4. subst h4. split; [|exact Ke4]. split; [exact Bd4|].
      exists cells4, (k2 ++ k4). cbn [snd s_heap]. rewrite live_app. splits; auto; try lia. now rewrite <- app_assoc. }
    destruct (pc_warning p); cbn [warned told].
    + apply wsim_call. intros [] _. apply Rest; rewrite ?read_app, ?dotted_app, ?spent_app; cbn; lia.
    + apply Rest; lia.
  - rewrite (bytes_says _ _ _ _ _ P). apply wsim_ret. split; [split; [exact Bd|]; exists cells, []; cbn [snd s_heap]; rewrite app_nil_r; splits; auto|].
    split; [now apply longer_app|]. exists kk. split; [lia|exact St].
  - rewrite (bytes_says _ _ _ _ _ P). apply wsim_stop.
Qed.

Definition inline_did (ign fs : option filelist) (tr0 : list event) (h : heap) (tr : list event) (c : unit * store_t) (r : unit) : Prop :=
  inline_done tr0 h tr (tt, s_heap (snd c)) r /\ kept fs tr (snd c) ign.

Lemma parse_inline_wsim ign fs tr (h : heap) ws p name :
  match p, name with Some p, Some s => cstr_at h p s | None, None => True | _, _ => False end -> bounded h -> kept fs tr (mkStore h ws) ign ->
  wsim (inline_did ign fs tr h) tr (w_parse_inline literal sequence p o (mkStore h ws)) (parse_inline name o).
Proof.
  intros C Bd Ke. pose proof (proj1 Ke) as Lo. cbn [s_heap] in Lo. unfold w_parse_inline, parse_inline.
  assert (Go : wsim (inline_did ign fs tr h) tr
    ((let# contents := ssys (ReadStream name) in
      match contents with
      | inr message => match name with Some f => sprint Stderr (f ++ bs ": " ++ message ++ [newline]) | None => sret tt end
      | inl bytes => let# base := heapwise (malloc (N.of_nat INLINE_BUF_SIZE)) in w_inline_loop literal sequence (S (length bytes)) (o_platform o) base bytes
      end) (mkStore h ws))
    (let! contents := sys (ReadStream name) in
     match contents with
     | inr message => match name with Some f => print Stderr (f ++ bs ": " ++ message ++ [newline]) | None => Ret tt end
     | inl bytes => inline_loop (S (length bytes)) o bytes
     end)).
  { apply wsim_sys. intros [bytes|message] _.
    - apply (wsim_malloc _ _ _ Lim); [now apply longer_short|]. intros Bd1. destruct Ke as (_ & kk & Lk & St). cbn [s_words] in St.
      eapply wsim_weaken; [apply (loop_wsim ign fs (S (length bytes)) _ h [] ws kk); [rewrite repeat_length; apply Nat2N.id|exact Bd1|exact Lo|exact St|]|].
      { rewrite spent_app. unfold names_in, names_of. cbn [flat_map]. rewrite app_nil_r. lia. }
      intros tr1 [[] [h1 ws1]] [] ((Bd2 & cells & k & E & L & R & D) & Ke1). cbn [snd s_heap] in *. subst h1. split; [|exact Ke1]. split; [exact Bd2|]. exists (Some cells :: k). split; [reflexivity|].
      rewrite live_cons. cbn [is_live]. rewrite read_app in R. rewrite dotted_app in D. cbn in R, D |- *. lia.
    - assert (Same : forall more, read_in more = 0 -> dotted_in more = 0 -> inline_did ign fs tr h (tr ++ more) (tt, mkStore h ws) tt).
      { intros more R D. split; [|exact (kept_on _ _ _ _ _ _ _ Ke Lo)]. split; [exact Bd|]. exists []. cbn [snd s_heap]. rewrite app_nil_r, read_app, dotted_app. cbn. splits; auto; lia. }
      destruct name as [f|].
      + apply wsim_call. intros [] _. apply wsim_ret. rewrite <- app_assoc. now apply Same.
      + apply wsim_ret. now apply Same. }
  destruct p as [p|], name as [f|]; try contradiction.
  - eapply wsim_mem_in; [exact (read_ok _ _ _ C)|]. exact Go.
  - exact Go.
Qed.

Definition inlines_did (ign fs : option filelist) (tr0 : list event) (h : heap) (tr : list event) (c : unit * store_t) (r : unit) : Prop :=
  inline_done tr0 h tr (tt, s_heap (snd c)) r /\ exists fs', items fs' = items fs /\ cursor fs' = 0 /\ kept fs' tr (snd c) ign.

Lemma inline_arguments_wsim ign : forall n fs tr (h : heap) ws, length (items fs) - cursor fs < n -> cursor fs <= length (items fs) -> bounded h -> kept fs tr (mkStore h ws) ign ->
  wsim (inlines_did ign fs tr h) tr (w_inline_arguments literal sequence files n o (mkStore h ws)) (inline_arguments o (skipn (cursor fs) (items fs))).
Proof.
  induction n as [|n IH]; intros fs tr h ws Ln Lc Bd Ke; [lia|]. pose proof (proj1 Ke) as Lo. cbn [s_heap] in Lo. destruct Ke as (_ & k & Lk & St). cbn [s_words] in St.
  destruct (file_steady ign fs k ws h Lo St) as (f & x & fs' & ws' & Eg & _ & Sf & St' & Ex & Ei & Ec).
  cbn [w_inline_arguments]. eapply wsim_inner; [exact Eg|]. pose proof (skipn_onward (items fs) (cursor fs)) as Sk. rewrite <- Ex in Sk.
  destruct f as [f|], x as [x|]; try contradiction.
  - destruct Sk as (-> & On). cbn [inline_arguments]. apply proj2 in Sf.
    assert (Lt : cursor fs < length (items fs)) by (apply nth_error_Some; rewrite <- Ex; discriminate).
    eapply wsim_mem; [exact (read_ok _ _ _ Sf)|]. apply wsim_sys. intros st _. set (tr1 := tr ++ _).
    assert (E1 : read_in tr1 = read_in tr /\ dotted_in tr1 = dotted_in tr) by (unfold tr1; rewrite read_app, dotted_app; cbn; lia).
    assert (Ke1 : kept fs' tr1 (mkStore h ws') ign) by (split; [exact Lo|]; exists k; split; [unfold tr1; rewrite spent_app; lia|exact St']). clearbody tr1.
    eapply wsim_bind with (R := inline_did ign fs' tr1 h).
    + assert (Said : forall text, wsim (inline_did ign fs' tr1 h) tr1 (sprint Stderr text (mkStore h ws')) (print Stderr text)).
      { intros text. apply wsim_call. intros [] _. apply wsim_ret. split; [|exact (kept_on _ _ _ _ _ _ _ Ke1 Lo)]. split; [exact Bd|]. exists []. cbn [snd s_heap]. rewrite app_nil_r, read_app, dotted_app. cbn. splits; auto; lia. }
      destruct st as [st|m]; [|apply Said]. destruct (isdir st); [apply Said|]. now apply parse_inline_wsim.
    + intros tr2 [[] [h2 ws2]] [] ((Bd2 & a & E2 & L1 & L2) & Ke2). cbn [snd s_heap] in *. subst h2.
      rewrite <- On, <- Ec, <- Ei. eapply wsim_weaken; [apply (IH fs' tr2 (h ++ a) ws2); auto; rewrite Ei, Ec, On; lia|].
      intros tr3 [[] [h3 ws3]] [] ((Bd3 & b & E3 & L3 & L4) & fs3 & Ei3 & Ec3 & Ke3). cbn [snd s_heap] in *. subst h3. split; [|exists fs3; rewrite Ei3, Ei; auto].
      split; [exact Bd3|]. exists (a ++ b). cbn [snd s_heap]. rewrite live_app. splits; try lia. now rewrite app_assoc.
  - rewrite Sk. cbn [inline_arguments]. apply wsim_ret. split.
    + split; [exact Bd|]. exists []. cbn. rewrite app_nil_r. splits; auto; lia.
    + exists fs'. splits; auto.
      * rewrite Ec. unfold onward. symmetry in Ex. apply nth_error_None in Ex. now rewrite (proj2 (Nat.eqb_eq _ _)) by lia.
      * split; [exact Lo|]. exists k. split; [exact Lk|exact St'].
Qed.

(** ** All of it *)

(** [new] is what is left *)
Definition work_did (fs : option filelist) (h : heap) (tr : list event) (c : N * store_t) (r : N) : Prop :=
  fst c = r /\
  (exists new, s_heap (snd c) = h ++ new /\
     if o_is_inline_mode o then read_in tr <= live new <= read_in tr + dotted_in tr
     else opened_in tr <= live new <= opened_in tr + 2 * asked_in tr) /\
  exists ign' fs', items fs' = items fs /\ cursor fs' = 0 /\ kept fs' tr (snd c) ign'.

Lemma files_count ign fs k ws (h : heap) : longer h -> steady ign fs k ws -> c_filelist_count files (mkStore h ws) = done (Z.of_nat (length (items fs)), mkStore h ws).
Proof.
  intros Lo St. pose proof (steady_at _ _ _ _ _ Lo St) as (_ & _ & _ & _ & F & _). unfold listed in F. destruct files as [p|], fs as [fs|]; try contradiction; [|reflexivity].
  destruct F as (_ & max & L). eapply list_count; eauto.
Qed.

Lemma work_wsim fuel ign fs : bounded h0 -> cursor fs = 0 -> forall ws, steady ign fs k0 ws ->
  wsim (work_did fs h0) [] (w_work literal sequence ignore files fuel o (mkStore h0 ws)) (work fuel o (items fs) ign).
Proof.
  intros Bd Cu ws St. assert (Lo : longer h0) by (exists []; now rewrite app_nil_r).
  assert (Ke : kept fs [] (mkStore h0 ws) ign) by (split; [exact Lo|]; exists k0; split; [unfold spent; lia|exact St]).
  assert (Sz : length (items fs) - cursor fs < S (heap_size h0)).
  { destruct St as ((_ & _ & _ & _ & F & _) & _). apply listed_size in F. cbn [s_heap] in F. lia. }
  assert (Le : cursor fs <= length (items fs)) by lia.
  assert (Sk : skipn (cursor fs) (items fs) = items fs) by now rewrite Cu.
  unfold w_work, work. cbv zeta. cbn [s_heap]. destruct (o_is_inline_mode o) eqn:Mode; cbn [negb].
  - eapply wsim_inner; [exact (files_count ign fs k0 ws h0 Lo St)|]. destruct (items fs) as [|name names] eqn:It.
    + cbn [length Z.of_nat Z.ltb Z.compare]. eapply wsim_bind; [apply (parse_inline_wsim ign fs [] h0 ws None None I Bd Ke)|].
      intros tr [[] s] [] ((_ & a & E & L1 & L2) & Ke'). cbn [fst snd s_heap] in *. apply wsim_ret. unfold work_did. rewrite Mode. cbn [fst snd]. splits; auto.
      * exists a. cbn in L1, L2. split; [exact E|lia].
      * exists ign, fs. auto.
    + replace (0 <? _)%Z with true by (symmetry; apply Z.ltb_lt; cbn [length]; lia). rewrite <- It in *.
      eapply wsim_bind; [rewrite <- Sk; apply (inline_arguments_wsim ign _ fs [] h0 ws Sz Le Bd Ke)|].
      intros tr [[] s] [] ((_ & a & E & L1 & L2) & fs' & Ei & Ec & Ke'). cbn [fst snd s_heap] in *. apply wsim_ret. unfold work_did. rewrite Mode. cbn [fst snd]. splits; auto.
      * exists a. cbn in L1, L2. split; [exact E|lia].
      * exists ign, fs'. auto.
  - eapply wsim_bind; [rewrite <- Sk; apply (arguments_wsim fuel _ fs [] h0 ws ign Sz Le Bd Ke)|].
    intros tr [[] s] r ((_ & _ & a & E & L1 & L2) & fs' & Ei & Ec & Ke'). cbn [fst snd s_heap] in *. apply wsim_ret. unfold work_did. rewrite Mode. cbn [fst snd]. splits; auto.
    + exists a. cbn in L1, L2. split; [exact E|lia].
    + exists r, fs'. auto.
Qed.

End proofs.
