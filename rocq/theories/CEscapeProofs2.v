(** * Proofs about escape-utf-8 in memory: the sequence, and the whole *)

From Verif Require Import Base BaseFacts Stdio StdioFacts Table TableSpec TableProofs GenBuiltin Filter Filelist Prog ProgFacts File FileSpec Inline Escape InlineSpec EscapeSpec EscapeProofs EscapeProofs3 Warnings Options Startup Main
  Mem MemSpec MemFacts Words WordsSpec WordsFacts CTable CTableProofs CTableProofs2 CTableProofs3 CConfig LinkedSpec CConfigProofs CConfigProofs2 CConfigProofs5 COptions CRun CWork CLoadSpec
  CReviewSpec CRunSpec CWorkSpec CWorkSim CWorkProofs CWorkProofs2 CWorkProofs3 CTame CWholeProofs CEscape CEscapeSpec CEscapeProofs.
From Verif Require Import COptionsProofs CRunProofs.

Local Open Scope nat_scope.

Ltac step L := rewrite (wbind_done _ _ _ _ _ L).

Section escape.

Context {al : allocator}.
Hypothesis Lim : limited al.
Context (literal : str -> ptr) (static : ptr) (m : store_t).
Hypothesis Start : escape_start literal static m.

(** The options are there, and point to the sequence. *)
Definition prepares (po : ptr) (s' : store_t) : Prop :=
  exists q vs sown more, content s' po vs /\ nth_error vs OP_sequence_to_use = Some (Adr (Some q)) /\
    set_up literal s' (Some q) None None escape_sequence None None 95 sown [] [] /\ s_heap s' = s_heap m ++ more.

Lemma options_ok s : ends (fun h n => h = s_heap s /\ n = 72%N)
  (fun p s' => p = mkPtr (length (s_heap s)) 0 /\ s_heap s' = s_heap s ++ [blank 72] /\ same_but [length (s_heap s)] s s' /\
     content s' p (repeat (Adr None) 12))
  (c_options_init s).
Proof.
  unfold c_options_init. eapply ends_bind.
  { eapply ends_weaken; [apply (new_ok s sizeof_options_t OP_members)| |intros a s' HQ; exact HQ]. intros h k (-> & ->). auto. }
  intros p s1 (-> & -> & _).
  assert (C1 := given_content s sizeof_options_t OP_members ltac:(apply Nat.leb_le; reflexivity)).
  step (clear_ok _ _ _ OP_members C1 ltac:(apply Nat.leb_le; reflexivity)). constructor. splits; try reflexivity.
  - intros b N. cbn [cleared given s_words]. rewrite !update_other; [reflexivity|..]; (intros E; apply N; left; cbn in *; congruence).
  - apply (cleared_content _ _ _ _ C1); [reflexivity|]. repeat (apply Forall_cons; [cbn; auto|]). apply Forall_nil.
Qed.

Lemma literal_there x : In x escape_literals -> cstr_at (s_heap m) (literal x) x.
Proof. apply Start. Qed.

Lemma options_in_place : ends (taking m (table_takes + sequence_takes)) prepares (c_escape_options literal static m).
Proof.
  destruct Start as (Li & (c & blocks & Se) & Bd). unfold c_escape_options.
  eapply ends_bind; [eapply ends_weaken; [apply (generate_ok m static c blocks Lim Se)| |intros a s' HQ; exact HQ]|].
  { intros h n Le. unfold taking in *. lia. }
  intros tab s1 (pt & cn & own & more & -> & T & Sd & H1 & On & W1 & Lv & Sz).
  assert (Tk : forall h n, (N.of_nat (heap_size h) + n <= N.of_nat (heap_size (s_heap s1)) + sequence_takes)%N -> taking m (table_takes + sequence_takes) h n).
  { intros h n Le. unfold taking. rewrite H1, size_app in Le. change (heap_size (None :: more)) with (heap_size more) in Le. lia. }
  assert (Lits : forall x extra, In x escape_literals -> cstr_at (s_heap s1 ++ extra) (literal x) x).
  { intros x extra I. rewrite H1, <- app_assoc. apply cstr_old. now apply Li. }
  assert (Ol : forall b, In b own -> b < length (s_heap s1)).
  { intros b I. destruct (own_live _ _ _ _ _ _ T I) as (cells & E). apply nth_error_Some. congruence. }
  change sequence_takes with 203%N in Tk |- *. set (A := length (s_heap s1)) in *.
  set (nm := bs "utf_8-escape"). set (fl := bs "escape_utf_8.c").
  assert (Inm : In nm escape_literals) by (apply in_app_iff; right; now left). assert (Ifl : In fl escape_literals) by (apply in_app_iff; right; right; now left).
  assert (Nfl : nonul fl) by now apply nonul_dec. assert (Nnm : nonul nm) by now apply nonul_dec.
  eapply ends_bind; [eapply ends_weaken; [apply (options_ok s1)| |intros a s' HQ; exact HQ]|].
  { intros h n (-> & ->). apply Tk. lia. }
  intros po s2 (-> & H2 & B2 & C2). fold A in B2, C2 |- *. set (po := mkPtr A 0) in *.
  assert (Lb2 : length (s_heap s2) = A + 1) by (rewrite H2, app_length; reflexivity).
  eapply ends_bind.
  { eapply ends_weaken; [apply (sequence_init_ok s2 [] 12 (literal nm) nm)| |intros a s' HQ; exact HQ].
    - split; [|split; [now intros []|apply Nat.leb_le; reflexivity]]. rewrite H2. now apply Lits.
    - reflexivity.
    - intros h n Le. apply Tk. rewrite H2, size_app in Le. change (heap_size [blank 72]) with 72 in Le. change (length nm) with 12 in Le. lia. }
  intros q s3 (-> & H3 & B3 & C3). rewrite Lb2 in B3, C3 |- *. assert (E2 : S (A + 1) = A + 2) by lia. rewrite E2 in C3. set (q := mkPtr (A + 1) 0) in *.
  assert (CO3 : content s3 po (repeat (Adr None) 12)).
  { apply (content_at s2); [|exact C2]. split; [rewrite H3; apply nth_error_app1; cbn; rewrite Lb2; lia|]. apply B3. cbn. intros [E|[]]. lia. }
  step (assign_ok s3 po _ 7 (Ptr q) CO3 ltac:(cbn; lia) : assign po OP_sequence_to_use _ _ = _).
  set (s4 := assigned s3 po 7 (Ptr q)).
  assert (CO4 : content s4 po (set_nth (repeat (Adr None) 12) 7 (Adr (Some q)))) by (apply assigned_content; [exact CO3|right; eauto]).
  assert (CS4 : content s4 q [Adr None; Adr (Some (mkPtr (A + 2) 0)); Adr None; Adr None]) by (apply assigned_other; [cbn; lia|exact C3]).
  assert (H4 : s_heap s4 = s_heap s1 ++ [blank 72; blank 32; string_block nm]) by (cbn [s4 assigned s_heap]; now rewrite H3, H2, <- app_assoc).
  assert (B4 : forall b, b < A -> s_words s4 b = s_words s1 b).
  { intros b Lb. cbn [s4 assigned s_words]. rewrite update_other by (cbn; lia). rewrite B3 by (cbn; lia). apply B2. cbn. lia. }
  clearbody s4. clear C2 CO3 C3 B2 B3 H2 H3 Lb2 s2 s3.
  eapply ends_bind; [eapply ends_weaken; [apply (strdup_ok s4 (literal fl) fl)| |intros a s' HQ; exact HQ]|].
  { rewrite H4. now apply Lits. }
  { reflexivity. }
  { intros h n (-> & ->). apply Tk. rewrite H4, size_app. change (heap_size [blank 72; blank 32; string_block nm]) with 117. change (strlen fl) with 14%N. lia. }
  intros src s5 (-> & -> & _). assert (L4 : length (s_heap s4) = A + 3) by (rewrite H4, app_length; reflexivity). rewrite L4. set (src := mkPtr (A + 3) 0).
  assert (CS5 := content_grow s4 [string_block fl] _ _ CS4). assert (CO5 := content_grow s4 [string_block fl] _ _ CO4).
  step (assign_ok _ q _ 3 (Ptr src) CS5 ltac:(cbn; lia) : assign q SQ_source_filename _ _ = _).
  set (s6 := assigned (grow s4 [string_block fl]) q 3 (Ptr src)).
  assert (CS6 : content s6 q [Adr None; Adr (Some (mkPtr (A + 2) 0)); Adr None; Adr (Some src)]) by exact (assigned_content _ q _ 3 (Ptr src) (Adr (Some src)) CS5 ltac:(right; eauto)).
  assert (CO6 : content s6 po (set_nth (repeat (Adr None) 12) 7 (Adr (Some q)))) by (apply assigned_other; [cbn; lia|exact CO5]).
  assert (H6 : s_heap s6 = s_heap s1 ++ [blank 72; blank 32; string_block nm; string_block fl]) by (cbn [s6 assigned s_heap grow]; now rewrite H4, <- app_assoc).
  assert (B6 : forall b, b < A -> s_words s6 b = s_words s1 b) by (intros b Lb; cbn [s6 assigned s_words grow]; rewrite update_other by (cbn; lia); now apply B4).
  clearbody s6. clear CS4 CS5 CO4 CO5 B4 H4 L4 s4.
  eapply ends_bind; [eapply ends_weaken; [apply (filter_init_ok s6)| |intros a s' HQ; exact HQ]|].
  { intros h n (-> & ->). apply Tk. rewrite H6, size_app. change (heap_size [blank 72; blank 32; string_block nm; string_block fl]) with 132. lia. }
  assert (L6 : length (s_heap s6) = A + 4) by (rewrite H6, app_length; reflexivity).
  intros f s7 (-> & H7 & B7 & C7). rewrite L6 in B7, C7 |- *. set (f := mkPtr (A + 4) 0) in *.
  assert (K7 : forall p vs, p_block p < A + 4 -> content s6 p vs -> content s7 p vs).
  { intros p vs Lp C. apply (content_at s6); [|exact C]. split; [rewrite H7; apply nth_error_app1; lia|]. apply B7. intros [E|[]]. lia. }
  apply K7 in CS6; [|cbn; lia]. apply K7 in CO6; [|cbn; lia].
  step (assign_ok s7 q _ 2 (Ptr f) CS6 ltac:(cbn; lia) : assign q SQ_filters _ _ = _).
  set (s8 := assigned s7 q 2 (Ptr f)).
  assert (CS8 : content s8 q [Adr None; Adr (Some (mkPtr (A + 2) 0)); Adr (Some f); Adr (Some src)]) by exact (assigned_content _ q _ 2 (Ptr f) (Adr (Some f)) CS6 ltac:(right; eauto)).
  assert (CO8 : content s8 po (set_nth (repeat (Adr None) 12) 7 (Adr (Some q)))) by (apply assigned_other; [cbn; lia|exact CO6]).
  assert (CF8 : content s8 f [Adr None; Num (cleaner_code F_utf_8); Adr None; Adr None; Num 0; Num 0; Adr None]) by (apply assigned_other; [cbn; lia|exact C7]).
  assert (H8 : s_heap s8 = s_heap s1 ++ [blank 72; blank 32; string_block nm; string_block fl; blank 56]) by (cbn [s8 assigned s_heap grow]; now rewrite H7, H6, <- app_assoc).
  assert (B8 : forall b, b < A -> s_words s8 b = s_words s1 b).
  { intros b Lb. cbn [s8 assigned s_words]. rewrite update_other by (cbn; lia). rewrite B7 by (cbn; lia). now apply B6. }
  clearbody s8. clear K7 CS6 CO6 C7 B6 B7 H6 H7 L6 s6 s7.
  eapply ends_bind; [eapply ends_weaken; [apply (strdup_ok s8 (literal fl) fl)| |intros a s' HQ; exact HQ]|].
  { rewrite H8. now apply Lits. }
  { reflexivity. }
  { intros h n (-> & ->). apply Tk. rewrite H8, size_app. change (heap_size [blank 72; blank 32; string_block nm; string_block fl; blank 56]) with 188. change (strlen fl) with 14%N. lia. }
  intros fn s9 (-> & -> & _). assert (L8 : length (s_heap s8) = A + 5) by (rewrite H8, app_length; reflexivity). rewrite L8. set (fn := mkPtr (A + 5) 0).
  assert (CS9 := content_grow s8 [string_block fl] _ _ CS8). assert (CO9 := content_grow s8 [string_block fl] _ _ CO8). assert (CF9 := content_grow s8 [string_block fl] _ _ CF8).
  step (assign_ok _ f _ 2 (Ptr fn) CF9 ltac:(cbn; lia) : assign f FT_filename _ _ = _).
  set (s10 := assigned (grow s8 [string_block fl]) f 2 (Ptr fn)).
  assert (CF10 : content s10 f [Adr None; Num (cleaner_code F_utf_8); Adr (Some fn); Adr None; Num 0; Num 0; Adr None]) by exact (assigned_content _ f _ 2 (Ptr fn) (Adr (Some fn)) CF9 ltac:(right; eauto)).
  step (assign_ok _ f _ 6 (Ptr pt) CF10 ltac:(cbn; lia) : assign f FT_table _ _ = _).
  set (s11 := assigned s10 f 6 (Ptr pt)).
  assert (CF : content s11 f [Adr None; Num (cleaner_code F_utf_8); Adr (Some fn); Adr None; Num 0; Num 0; Adr (Some pt)]) by exact (assigned_content _ f _ 6 (Ptr pt) (Adr (Some pt)) CF10 ltac:(right; eauto)).
  assert (CS : content s11 q [Adr None; Adr (Some (mkPtr (A + 2) 0)); Adr (Some f); Adr (Some src)]) by (apply assigned_other; [cbn; lia|apply assigned_other; [cbn; lia|exact CS9]]).
  assert (CO : content s11 po (set_nth (repeat (Adr None) 12) 7 (Adr (Some q)))) by (apply assigned_other; [cbn; lia|apply assigned_other; [cbn; lia|exact CO9]]).
  assert (H : s_heap s11 = s_heap s1 ++ [blank 72; blank 32; string_block nm; string_block fl; blank 56; string_block fl]) by (cbn [s11 s10 assigned s_heap grow]; now rewrite H8, <- app_assoc).
  assert (B : forall b, b < A -> s_words s11 b = s_words s1 b).
  { intros b Lb. cbn [s11 s10 assigned s_words grow]. rewrite !update_other by (cbn; lia). now apply B8. }
  clearbody s11. clear CF8 CF9 CF10 CS8 CS9 CO8 CO9 B8 H8 L8 s8 s10.
  constructor. exists q, (set_nth (repeat (Adr None) 12) 7 (Adr (Some q))), (A + 1 :: [A + 2; A + 3] ++ (A + 4 :: [A + 5] ++ own ++ [])), (None :: more ++ [blank 72; blank 32; string_block nm; string_block fl; blank 56; string_block fl]).
  assert (Str : forall i x, nth_error [blank 72; blank 32; string_block nm; string_block fl; blank 56; string_block fl] i = Some (string_block x) -> nonul x -> string_in (s_heap s11) (Some (mkPtr (A + i) 0)) (Some x)).
  { intros i x E N. split; [reflexivity|]. exists (map Some x ++ [Some NUL]), []. cbn [p_block p_off]. splits; auto.
    rewrite H, nth_error_app2 by lia. replace (A + i - length (s_heap s1)) with i by (unfold A; lia). exact E. }
  assert (Ts : table_at s11 pt generate_c_escape_table cn own).
  { apply (table_at_same s1); [|exact T]. intros b I. apply Ol in I. split; [rewrite H; now apply nth_error_app1|now apply B]. }
  assert (NDo : NoDup own) by (destruct T as (rp & ds & df & _ & _ & _ & _ & _ & ND & _); exact ND).
  assert (ND : NoDup (A + 1 :: [A + 2; A + 3] ++ A + 4 :: [A + 5] ++ own ++ [])).
  { rewrite app_nil_r. cbn [app]. repeat (apply NoDup_cons; [cbn [In]; intros I; repeat (destruct I as [I|I]; [lia|]); apply Ol in I; lia|]). exact NDo. }
  splits; [exact CO|reflexivity| |].
  - unfold set_up. splits.
    + exists q. split; [reflexivity|]. unfold ready_at. exists None, (mkPtr (A + 2) 0), (Some src), [f], (A + 4 :: [A + 5] ++ own ++ []). splits.
      * exact CS.
      * exact (Str 2 nm eq_refl Nnm).
      * exact (Str 3 fl eq_refl Nfl).
      * cbn [reviewed_at escape_sequence s_filters]. exists (Some fn), None, (Some pt), own, []. splits.
        -- exact CF.
        -- exact (Str 5 fl eq_refl Nfl).
        -- exact I.
        -- exists cn. auto.
        -- reflexivity.
        -- reflexivity.
      * reflexivity.
      * exact ND.
    + repeat constructor. intros v. discriminate.
    + intros x I. rewrite H. apply Lits. apply in_app_iff. now left.
    + reflexivity.
    + reflexivity.
    + rewrite !app_nil_r. rewrite app_nil_r in ND. exact ND.
  - rewrite H, H1, <- app_assoc. reflexivity.
Qed.

Lemma mild_snprintf p n x : mild (c_snprintf p n x).
Proof. unfold c_snprintf. apply mild_bind; [apply mild_write|intros; apply mild_ret]. Qed.

Ltac calm := repeat first
  [ apply calm_ret | apply calm_int_at | apply calm_ptr_at | apply calm_assign | apply calm_deref | apply calm_index | apply calm_sum | apply calm_incr | apply calm_rows | apply calm_row_key | apply calm_row_data
  | apply calm_hash | apply calm_find_row | apply calm_put; exact Lim | apply calm_resize; exact Lim | apply calm_options_init; exact Lim | apply calm_sequence_init; exact Lim | apply calm_filter_init; exact Lim
  | apply calm_bytes, mild_strdup; exact Lim | apply calm_bind; [|intros] | apply calm_quiet; discriminate
  | match goal with |- calm (match ?x with _ => _ end) => destruct x end | progress cbv beta iota zeta ].

Lemma calm_get t k : calm (c_table_get t k).
Proof. unfold c_table_get. calm. Qed.

Lemma calm_store_text p w i x : calm (c_store_text p w i x).
Proof. unfold c_store_text. apply calm_bind; [apply calm_bytes, mild_snprintf|intros]. apply calm_bind; [calm|intros; apply calm_ret]. Qed.

Lemma calm_generate : calm (c_generate_c_escape_table static).
Proof.
  unfold c_generate_c_escape_table. apply calm_bind; [apply calm_bytes, mild_malloc; exact Lim|intros w]. apply calm_bind; [calm|intros t].
  apply calm_bind; [|intros _].
  { apply calm_while. intros i. destruct (i <? _)%Z; [|apply calm_ret]. apply calm_bind; [apply calm_get|intros [x|]]; (apply calm_bind; [|intros; apply calm_ret]); [apply calm_ret|apply calm_store_text]. }
  apply calm_bind; [|intros j]; [|apply calm_bind; [|intros _]]; [..|apply calm_bind; [apply calm_bytes, mild_free|intros; apply calm_ret]];
    (apply calm_while; intros i; destruct (i <? _)%Z; [|apply calm_ret]; apply calm_bind; [apply calm_store_text|intros; apply calm_ret]).
Qed.

Lemma calm_escape_options : calm (c_escape_options literal static).
Proof. unfold c_escape_options. apply calm_bind; [apply calm_generate|intros]. calm. Qed.

(** ** The whole *)

Context (pf : platform).

(** What main leaves: the table and the sequence are in use, and the buffer of parse_inline. *)
Definition escape_did (tr : list event) (a : N * store_t) (b : N) : Prop :=
  fst a = b /\ (exists new, s_heap (snd a) = s_heap m ++ new) /\
  exists q sown k', k' <= 95 + lookups pf [escape_filter] (names_in (p_schar pf) tr) /\ set_up literal (snd a) (Some q) None None escape_sequence None None k' sown [] [].

Definition the_options (sq : option sequence_t) : options_t := mkOptions pf false false false false false false 0 sq None None None None.

Lemma escape_main_eq : escape_main pf = pbind (parse_inline None (the_options (Some escape_sequence))) (fun _ => Ret EXIT_SUCCESS).
Proof. reflexivity. Qed.

Lemma inline_options q sq s : w_parse_inline literal (Some q) None (the_options None) s = w_parse_inline literal (Some q) None (the_options sq) s.
Proof. reflexivity. Qed.

Lemma escape_sim : wsim (escape_asked m) (escape_worn pf) escape_did [] (w_escape_main literal static pf m) (escape_main pf).
Proof.
  unfold w_escape_main.
  assert (F : follows (taking m (table_takes + sequence_takes)) (fun _ _ => False) (fun _ => prepares) (done tt) (c_escape_options literal static m)).
  { pose proof options_in_place as E. destruct E as [a s' Q|h n message Er R].
    - eapply follows_done; [reflexivity|exact Q].
    - apply (follows_refused _ _ _ _ [] [] h n message); auto. }
  change (escape_main pf) with (pbind (talking (done tt)) (fun _ => escape_main pf)).
  eapply wsim_follows; [exact F| |intros h n message _ []|].
  { intros h n T. now left. }
  intros [] po s1 _ E1 (q & vs & sown & more & C & V & Su & H).
  assert (Bd1 : bounded (s_heap s1)) by (apply (tame_bounded (s_heap m)); [exact (calm_escape_options m _ _ _ E1)|apply Start]).
  eapply wsim_inner; [exact (ptr_at_ok s1 po _ 7 _ C V : ptr_at po OP_sequence_to_use s1 = _)|].
  rewrite escape_main_eq. set (o := the_options (Some escape_sequence)).
  assert (St : steady literal (Some q) None None escape_sequence sown [] [] (s_heap s1) [] None None 95 (s_words s1)) by (split; [now rewrite store_eta|reflexivity]).
  pose proof (parse_inline_wsim Lim literal (Some q) None None escape_sequence sown [] [] (s_heap s1) 95 [] o eq_refl None None [] (s_heap s1) (s_words s1) None None I Bd1) as W.
  rewrite store_eta in W.
  assert (Ke : CWorkProofs2.kept literal (Some q) None None escape_sequence sown [] [] (s_heap s1) 95 [] o None [] s1 None).
  { split; [exists []; now rewrite app_nil_r|]. exists 95. split; [lia|exact St]. }
  specialize (W Ke). cbn [fst done map app]. unfold sbind. change (w_parse_inline literal (Some q) None (mkOptions pf false false false false false false 0 None None None None None) s1) with (w_parse_inline literal (Some q) None o s1).
  eapply wsim_bind.
  - eapply wsim_mono; [exact W| |intros tr' X; exact X]. intros h n (a & ->). right. exists (more ++ a). now rewrite H, app_assoc.
  - intros tr' [[] s2] [] ((_ & a & E & _) & Lo & k' & Lk & St'). cbn [fst snd s_heap] in *. apply wsim_ret. split; [reflexivity|]. cbn [snd]. split.
    + exists (more ++ a). now rewrite E, H, app_assoc.
    + exists q, sown, k'. split; [exact Lk|]. rewrite <- (store_eta s2). eapply steady_at; eauto.
Qed.

(** ** Executions *)

Context {S : Type} (step : S -> forall c, answer c -> S -> Prop) (interference : S -> S -> Prop).

Lemma escape_runs s tr s' p' : runs step interference (w_escape_main literal static pf m) s tr s' p' -> Forall fair_event tr -> ~ escape_worn pf tr ->
  (exists q', runs step interference (escape_main pf) s tr s' q' /\ (as_far_as p' q' \/ at_a_loss (escape_asked m) p')) \/
  ends_short (escape_asked m) step interference (escape_main pf) s tr s' p'.
Proof.
  intros Ru F N. destruct (wsim_runs _ _ _ step interference [] _ _ escape_sim _ _ _ _ Ru F) as [(q' & Rq & H)|[H|(before & after & -> & O)]].
  - left. exists q'. split; [exact Rq|]. destruct (wsim_far _ _ _ _ _ _ H) as [X|X]; [now intros tr0 a b (E & _)|exact X|contradiction].
  - now right.
  - exfalso. apply N. now apply worn_on.
Qed.

Lemma escape_runs_back s tr s' q' : runs step interference (escape_main pf) s tr s' q' -> Forall fair_event tr -> ~ escape_worn pf tr ->
  (exists p', runs step interference (w_escape_main literal static pf m) s tr s' p' /\ (as_far_as p' q' \/ at_a_loss (escape_asked m) p')) \/
  (exists before after s1 p1, tr = before ++ after /\ runs step interference (w_escape_main literal static pf m) s before s1 p1 /\ at_a_loss (escape_asked m) p1).
Proof.
  intros Ru F N. destruct (wsim_runs_back _ _ _ step interference [] _ _ escape_sim _ _ _ _ Ru F) as [(p' & Rp & H)|[H|(before & after & -> & O)]].
  - left. exists p'. split; [exact Rp|]. destruct (wsim_far _ _ _ _ _ _ H) as [X|X]; [now intros tr0 a b (E & _)|exact X|contradiction].
  - now right.
  - exfalso. apply N. now apply worn_on.
Qed.

Lemma escape_left s tr s' n m' : runs step interference (w_escape_main literal static pf m) s tr s' (Ret (n, m')) -> Forall fair_event tr -> ~ escape_worn pf tr ->
  runs step interference (escape_main pf) s tr s' (Ret n) /\ (exists new, s_heap m' = s_heap m ++ new) /\
  exists q sown k, k <= 95 + lookups pf [escape_filter] (names_in (p_schar pf) tr) /\ set_up literal m' (Some q) None None escape_sequence None None k sown [] [].
Proof.
  intros Ru F N. destruct (wsim_runs _ _ _ step interference [] _ _ escape_sim _ _ _ _ Ru F) as [(q' & Rq & H)|[(b & ms & h0 & n0 & s1 & s2 & q' & _ & _ & _ & E & _)|(before & after & -> & O)]].
  - inversion H as [tr0 a b (E & X)| | | |tr0 p0 q1 O]; subst; [split; [exact Rq|exact X]|contradiction].
  - discriminate.
  - exfalso. apply N. now apply worn_on.
Qed.

(** Whatever is in the stream and whatever malloc does: nothing but printable ASCII is written. *)
Lemma escape_any_run s tr s' p' : runs step interference (w_escape_main literal static pf m) s tr s' p' -> Forall fair_event tr -> ~ escape_worn pf tr ->
  Forall (fun c => printable_ascii c \/ c = newline) (stdout_text tr) /\
  match p' with
  | Ret (code, _) => code = 0%N
  | Stop w => w = StopUB BufferUnderread \/ w = StopExit EXIT_FAILURE
  | Call c _ => c = ReadStream None \/ exists out text, c = Print out text
  end.
Proof.
  intros Ru F N. destruct (escape_runs s tr s' p' Ru F N) as [(q' & Rq & H)|(before & message & h & n & s1 & s2 & q' & Er & _ & -> & -> & Rq & _)].
  - apply runs_trace in Rq. destruct (escape_any_input pf tr q' Rq) as (P & E). split; [exact P|].
    destruct H as [H|(message & h & n & _ & _ & ->)]; [|right; eauto].
    destruct p' as [[a b]|w|c k], q' as [a'|w'|c' k']; cbn [as_far_as] in H; try contradiction; auto; subst; auto.
  - apply runs_trace in Rq. destruct (escape_any_input pf before q' Rq) as (P & _). split; [|now right].
    unfold stdout_text. rewrite flat_map_app. apply Forall_app. split; [exact P|constructor].
Qed.

End escape.
