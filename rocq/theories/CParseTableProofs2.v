(** * Proofs about loading a table into memory: files *)

From Verif Require Import Base BaseFacts Stdio StdioFacts Table TableSpec TableProofs ParseTable ParseTableSpec ParseTableProofs TableFileSpec TableFileProofs
  Prog Warnings WarningsProofs Startup StartProofs4 Mem MemSpec MemFacts CFiltersProofs Words WordsSpec WordsFacts CTable CTableProofs CTableProofs2 TablesSpec CTableProofs3
  CParseTable LoadSpec CParseTableProofs.

Local Open Scope nat_scope.

(** ** What is lost *)

Fixpoint lost_from (has : bool) (ds : list directive) : nat :=
  match ds with
  | [] => 0
  | Default x :: ds => (if has then 1 else 0) + lost_from (match x with Some _ => true | None => false end) ds
  | _ :: ds => lost_from has ds
  end.

Lemma lost_from_eq ds : forall has : bool, lost_from has ds = (if has && existsb sets_default ds then 1 else 0) + defaults_lost ds.
Proof.
  induction ds as [|d ds IH]; intros has; [now rewrite andb_false_r|]. destruct d as [c x|[x|]|]; cbn [lost_from existsb sets_default orb defaults_lost]; rewrite IH; try rewrite andb_true_r; cbn; lia.
Qed.

Definition has_default (t : table) : bool := match t_default t with Some _ => true | None => false end.

Lemma lost_step d ds t t' : effect d t = Some t' -> lost_from (has_default t) (d :: ds) = dropped d t + lost_from (has_default t') ds.
Proof.
  destruct d as [c x|x|]; cbn [effect lost_from]; unfold dropped.
  - destruct (table_put t c x) as [t1 [o|]] eqn:E; [|discriminate]. intros [= <-]. pose proof (table_put_default t c x) as D. rewrite E in D. cbn in D.
    unfold has_default. rewrite D. now destruct (t_default t).
  - intros [= <-]. unfold has_default. cbn [t_default set_default]. destruct (t_default t), x; reflexivity.
  - intros [= <-]. now destruct (t_default t).
Qed.

Lemma put_set_default t x k d : table_put (set_default t x) k d = (set_default (fst (table_put t k d)) x, snd (table_put t k d)).
Proof.
  unfold table_put. destruct (k =? 0)%N; [reflexivity|]. cbn [t_length t_rows t_used set_default]. change (t_length (set_default t x)) with (t_length t).
  destruct (t_length t =? t_used t); [reflexivity|]. change (put_offset (set_default t x) k) with (put_offset t k). destruct (put_offset t k); reflexivity.
Qed.

Lemma send_set_default l : forall t x, send (set_default t x) l = set_default (send t l) x.
Proof. induction l as [|(k, d) l IH]; intros t x; [reflexivity|]. cbn [send]. rewrite put_set_default. cbn [fst]. apply IH. Qed.

Lemma effects_send ds : forall t t', effects ds t = Some t' -> t_overwrites t' = t_overwrites (send t (entries ds)).
Proof.
  induction ds as [|d ds IH]; intros t t' E; [now injection E as <-|]. cbn [effects] in E. destruct (effect d t) as [t1|] eqn:E1; [|discriminate].
  apply IH in E. rewrite E. destruct d as [c x|x|]; cbn [effect entries flat_map app] in *; fold (entries ds).
  - cbn [send]. destruct (table_put t c x) as [t2 [o|]]; [|discriminate]. now injection E1 as <-.
  - injection E1 as <-. rewrite send_set_default. reflexivity.
  - now injection E1 as <-.
Qed.

Lemma accepted_all n l : ~ In 0%N (map fst l) -> length l <= n -> accepted n l = l.
Proof.
  induction l as [|(k, d) l IH] using rev_ind; intros Z L; [now destruct n|]. rewrite map_app, app_length in *. cbn [map fst length] in *.
  rewrite accepted_last. rewrite IH; [|intros I; apply Z, in_or_app; now left|lia].
  destruct (N.eqb_spec k 0) as [->|Nz]; [exfalso; apply Z, in_or_app; right; now left|]. cbn [negb andb].
  destruct (Nat.ltb_spec (length l) n); [reflexivity|lia].
Qed.

Lemma replaced_entries contents ds t' : effects ds (table_init (Z.of_nat (table_capacity (length contents)))) = Some t' ->
  t_overwrites t' = replacing (entries ds) /\ ~ In 0%N (map fst (entries ds)) /\ length (entries ds) <= room contents.
Proof.
  intros E. destruct (start_table contents) as (W & R & _ & _). cbv zeta in *.
  assert (A : ~ In 0%N (map fst (entries ds)) /\ length (entries ds) <= room contents).
  { destruct (in_dec N.eq_dec 0%N (map fst (entries ds))) as [I|Nz].
    - exfalso. apply (or_introl (B := room contents < length (entries ds))) in I. rewrite <- R in I. apply (effects_reject ds _ W) in I. congruence.
    - split; [exact Nz|]. destruct (Nat.le_gt_cases (length (entries ds)) (room contents)) as [|G]; [assumption|]. exfalso.
      apply (or_intror (A := In 0%N (map fst (entries ds)))) in G. rewrite <- R in G. apply (effects_reject ds _ W) in G. congruence. }
  split; [|exact A]. rewrite (effects_send _ _ _ E). pose proof (replaced_sum (Z.of_nat (table_capacity (length contents))) (entries ds)) as S.
  rewrite accepted_all in S by (rewrite ?table_capacity_room; tauto). unfold replacing. lia.
Qed.

Lemma saying_some ds : forall t t', snd (StartProofs4.saying ds t) = Some t' -> fst (StartProofs4.saying ds t) = [] /\ t_builtin t' = t_builtin t.
Proof.
  induction ds as [|d ds IH]; intros t t' E; cbn [StartProofs4.saying] in *; [now injection E as <-|].
  destruct (effect d t) as [t1|] eqn:E1; [|destruct d; discriminate]. destruct (IH t1 t' E) as (S & B). split; [exact S|]. rewrite B.
  destruct d as [c x|x|]; cbn [effect] in E1; [|now injection E1 as <-..].
  destruct (table_put t c x) as [t2 [o|]] eqn:P; [|discriminate]. injection E1 as <-. pose proof (put_builtin t c x) as X. now rewrite P in X.
Qed.

(** ** The loop *)

Lemma text_bytes_cons d ds : text_bytes (d :: ds) = text_bytes [d] + text_bytes ds.
Proof. unfold text_bytes. cbn [map list_sum fold_right]. fold (list_sum (map (fun d => match d with Entry _ x | Default (Some x) => length x + 1 | _ => 0 end) ds)). lia. Qed.

Lemma sizes_of (l : list N) : forall h, h = map blank l -> heap_size h = list_sum (map N.to_nat l).
Proof.
  induction l as [|n l IH]; intros h ->; [reflexivity|]. cbn [map]. rewrite (size_app [blank n] (map blank l) : heap_size (blank n :: _) = _), (IH _ eq_refl).
  unfold blank at 1. rewrite size_one, repeat_length. reflexivity.
Qed.

Section loading.

Context {al : allocator}.

Local Notation parsing := (@parsing fresh_counters 0).

Lemma comes_bind {A B} (R R' : heap -> N -> Prop) (Q' : A -> store_t -> Prop) (Q : list (stream * str) -> B -> store_t -> Prop) (m : wmem A) (k : A -> wmem B) s :
  ends R' Q' (m s) -> (forall h n, R' h n -> R h n) -> (forall a s', Q' a s' -> comes_to R Q (k a s')) -> comes_to R Q (wbind m k s).
Proof.
  intros E RR K. unfold wbind. destruct E as [a s' q|h n message E r].
  - rewrite tbind_done. auto.
  - cbn. econstructor 2; eauto.
Qed.

Lemma comes_weaken {A} (R R' : heap -> N -> Prop) (Q Q' : list (stream * str) -> A -> store_t -> Prop) t :
  comes_to R Q t -> (forall h n, R h n -> R' h n) -> (forall said a s, Q said a s -> Q' said a s) -> comes_to R' Q' t.
Proof. intros [said a s q|h n message E r] HR HQ; [constructor 1|econstructor 2]; eauto. Qed.

Lemma complained {A} message (k : unit -> wmem A) s said r : k tt s = (said, r) -> wbind (Words.saying (complain message)) k s = ((Stderr, message ++ [newline]) :: said, r).
Proof. intros E. unfold wbind, Words.saying, complain, say, tbind, done, quietly. cbn. now rewrite E. Qed.

Lemma size_freed h : forall i cells, nth_error h i = Some (Some cells) -> heap_size (set_block h i None) + length cells = heap_size h.
Proof.
  induction h as [|b h IH]; intros [|i] cells E; cbn in E; try discriminate.
  - injection E as ->. unfold heap_size. cbn. lia.
  - change (set_block (b :: h) (S i) None) with (b :: set_block h i None). rewrite (size_app [b] (set_block h i None) : heap_size (b :: _) = _), (size_app [b] h : heap_size (b :: _) = _).
    pose proof (IH i cells E). lia.
Qed.

(** Giving back the buffers *)
Lemma drop_buffers s W P cw cp : nth_error (s_heap s) W = Some (Some cw) -> nth_error (s_heap s) P = Some (Some cp) -> W <> P -> forall {A} (k : wmem A),
  exists h', (let$ _ := bytes (free (mkPtr W 0)) in let$ _ := bytes (free (mkPtr P 0)) in k) s = k (mkStore h' (s_words s)) /\ h' = free_all [W; P] (s_heap s) /\ live h' + 2 = live (s_heap s) /\
    heap_size h' + length cw + length cp = heap_size (s_heap s).
Proof.
  intros EW EP D A k. eexists. split; [|split; [reflexivity|]].
  - step (wfree_ok s W cw EW). cbn [free_all fold_left].
    assert (E2 : nth_error (s_heap (mkStore (set_block (s_heap s) W None) (s_words s))) P = Some (Some cp)) by (cbn [s_heap]; now rewrite set_other).
    step (wfree_ok _ P cp E2). reflexivity.
  - cbn [free_all fold_left]. pose proof (live_set _ _ _ EW). assert (E2 : nth_error (set_block (s_heap s) W None) P = Some (Some cp)) by now rewrite set_other.
    pose proof (live_set _ _ _ E2). pose proof (size_freed _ _ _ EW). pose proof (size_freed _ _ _ E2). lia.
Qed.

Lemma free_all_new l h : forall more, (forall b, In b l -> length h <= b) -> exists more', free_all l (h ++ more) = h ++ more'.
Proof.
  induction l as [|b l IH]; intros more L; [now exists more|]. cbn [free_all fold_left]. pose proof (L b (or_introl eq_refl)) as Lb.
  replace b with (length h + (b - length h)) by lia. rewrite set_app_r. apply (IH (set_block more (b - length h) None)). intros x Ix. apply L. now right.
Qed.

Definition loaded (s0 : store_t) (p : ptr) (t : table) (k z : nat) (ds : list directive) (q : option ptr) (s' : store_t) : Prop :=
  (forall b, b < length (s_heap s0) -> s_words s' b = s_words s0 b) /\
  exists more, s_heap s' = s_heap s0 ++ more /\
    match snd (StartProofs4.saying ds t) with
    | Some t' => exists own, q = Some p /\ table_at s' p t' fresh_counters own /\ (forall b, In b own -> length (s_heap s0) <= b) /\ effects ds t = Some t' /\
        live more = length own + t_overwrites t' + k + lost_from (has_default t) ds /\ heap_size more + 2048 = z + text_bytes ds
    | None => exists before c x after t1, ds = before ++ Entry c x :: after /\ effects before t = Some t1 /\ effect (Entry c x) t1 = None /\
        fst (StartProofs4.saying ds t) = [(Stderr, row_rejected c x ++ [newline])] /\ q = None /\ live more = t_overwrites t1 + k + lost_from (has_default t) before
    end.

Lemma finish_in_memory R s0 s p W P t k z : parsing s0 s p W P t k z ->
  comes_to R (fun said q s' => said = [] /\ loaded s0 p t k z [] q s')
    ((let$ _ := bytes (free (mkPtr W 0)) in let$ _ := bytes (free (mkPtr P 0)) in wret (Some p)) s).
Proof.
  intros (own & more & T & Wf & Nb & Ow & Ln & H & On & LW & LP & D & (cw & EW & LW') & (cp & EP & LP') & Ws & Lv & Hz).
  destruct (drop_buffers s W P cw cp EW EP D (wret (Some p))) as (h' & E & Eh & Lh & Sh). rewrite E. constructor. split; [reflexivity|]. split; [exact Ws|].
  cbn [s_heap]. destruct (free_all_new [W; P] (s_heap s0) more) as (more' & Em); [intros b [<-|[<-|[]]]; auto|].
  rewrite <- H, <- Eh in Em. exists more'. split; [exact Em|]. cbn [StartProofs4.saying snd effects lost_from]. exists own. splits; auto.
  - apply (table_at_same s); [|exact T]. intros b Ib. cbn [s_heap s_words]. split; [|reflexivity]. rewrite Eh. apply free_all_other. intros [<-|[<-|[]]]; apply On in Ib; tauto.
  - intros b Ib. now apply On.
  - rewrite Em, H, !live_app in Lh. lia.
  - rewrite Em, H, !size_app, LW', LP' in Sh. unfold TABLE_BUFFER in Sh. change (text_bytes []) with 0. lia.
Qed.

Lemma reject_in_memory R s0 s p W P t k z c x : parsing s0 s p W P t k z -> cstr_at (s_heap s) (mkPtr P 0) x -> effect (Entry c x) t = None -> forall after,
  comes_to R (fun said q s' => said = [(Stderr, row_rejected c x ++ [newline])] /\ loaded s0 p t k z (Entry c x :: after) q s')
    ((let$ text := bytes (c_read (mkPtr P 0)) in
      let$ _ := Words.saying (complain (row_rejected c text)) in
      let$ _ := c_table_free (Some p) in
      let$ _ := bytes (free (mkPtr W 0)) in
      let$ _ := bytes (free (mkPtr P 0)) in
      wret None) s).
Proof.
  intros (own & more & T & Wf & Nb & Ow & Ln & H & On & LW & LP & D & (cw & EW & _) & (cp & EP & _) & Ws & Lv & Hz) C Ef after.
  step (bytes_same (c_read (mkPtr P 0)) s x (read_ok _ _ _ C)).
  destruct (free_in_memory s p t fresh_counters own T Nb) as (h1 & Fr & Wo & Lf).
  assert (EW1 : nth_error h1 W = Some (Some cw)).
  { destruct Wo as (_ & Wo). rewrite Wo. destruct (in_dec Nat.eq_dec W own) as [I|_]; [apply On in I; tauto|exact EW]. }
  assert (EP1 : nth_error h1 P = Some (Some cp)).
  { destruct Wo as (_ & Wo). rewrite Wo. destruct (in_dec Nat.eq_dec P own) as [I|_]; [apply On in I; tauto|exact EP]. }
  destruct (drop_buffers (mkStore h1 (s_words s)) W P cw cp EW1 EP1 D (wret (@None ptr))) as (h2 & E & Eh & Lh & _). cbn [s_heap s_words] in *.
  pose proof (wbind_done _ (fun _ => let$ _ := bytes (free (mkPtr W 0)) in let$ _ := bytes (free (mkPtr P 0)) in wret (@None ptr)) _ _ _ Fr) as E1. cbv beta in E1. rewrite E in E1.
  rewrite (complained _ (fun _ => let$ _ := c_table_free (Some p) in let$ _ := bytes (free (mkPtr W 0)) in let$ _ := bytes (free (mkPtr P 0)) in wret (@None ptr)) s _ _ E1).
  constructor. split; [reflexivity|]. split; [exact Ws|]. cbn [s_heap].
  rewrite H in Wo. destruct (without_new own (s_heap s0) more h1 (fun b I => proj1 (On b I)) Wo) as (more1 & E1').
  destruct (free_all_new [W; P] (s_heap s0) more1) as (more2 & Em); [intros b [<-|[<-|[]]]; auto|]. rewrite <- E1', <- Eh in Em.
  exists more2. split; [exact Em|]. cbn [StartProofs4.saying]. rewrite Ef. cbn [snd]. exists [], c, x, after, t. splits; auto.
  cbn [lost_from]. rewrite Em, E1' in Lh. rewrite E1', H in Lf. rewrite !live_app in *. lia.
Qed.

Lemma loaded_step s0 p t k z d ds q s' t' : effect d t = Some t' -> loaded s0 p t' (k + dropped d t) (z + text_bytes [d]) ds q s' -> loaded s0 p t k z (d :: ds) q s'.
Proof.
  intros E (Ws & more & H & L). split; [exact Ws|]. exists more. split; [exact H|]. cbn [StartProofs4.saying]. rewrite E.
  destruct (snd (StartProofs4.saying ds t')) as [t2|].
  - destruct L as (own & Eq & T & On & Ef & Lv & Sz). exists own. splits; auto; [cbn [effects]; now rewrite E| |]; [rewrite (lost_step _ _ _ _ E)|rewrite (text_bytes_cons d ds)]; lia.
  - destruct L as (before & c & x & after & t1 & -> & Ef & Er & Sd & Eq & Lv). exists (d :: before), c, x, after, t1. splits; auto; [cbn [effects]; now rewrite E|].
    rewrite (lost_step _ _ _ _ E). lia.
Qed.

Lemma loop_in_memory locale s0 p W P : forall ps i j ds contents fuel off t k z s,
  file_means locale i ps j ds -> pieces contents ps -> length contents <= fuel -> parsing s0 s p W P t k z ->
  comes_to (fun h n => exists more, h = s_heap s0 ++ more /\ heap_size more + N.to_nat n <= z + text_bytes ds)
    (fun said q s' => said = fst (StartProofs4.saying ds t) /\ loaded s0 p t k z ds q s')
    (c_parse_loop fuel locale contents p (mkPtr W 0) (mkPtr P 0) i off s).
Proof.
  induction ps as [|x ps IH]; intros i j ds contents fuel off t k z s M Pc L I.
  - inversion M; subst. inversion Pc; subst. destruct fuel; exact (finish_in_memory _ s0 s p W P t k z I).
  - inversion M as [|i' p' line j' d ps' k' ds' V M1 M2]; subst.
    destruct (pieces_fgets _ _ _ Pc) as (rest & F & P' & E & NE).
    destruct fuel as [|fuel]; [rewrite E, app_length in L; lia|].
    destruct contents as [|c contents]; [destruct x; [cbn in NE; lia|discriminate]|].
    apply visible_iff in V. subst line.
    assert (LP : length (cstr x) <= 1023).
    { pose proof (cstr_length x). pose proof F as F'. apply fgets_bytes_spec in F'. destruct F' as (_ & F' & _). lia. }
    cbn [c_parse_loop].
    destruct (fgets_in_memory (s_heap s) W (c :: contents) x rest (parsing_W _ _ _ _ _ _ _ _ I) F) as (cells & Lc & Ef & Cw).
    step (bytes_done _ _ _ _ Ef).
    assert (I1 := parsing_set s0 s p W P t k z W cells I (or_introl eq_refl) Lc). set (s1 := mkStore (set_block (s_heap s) W (Some cells)) (s_words s)) in *.
    eapply comes_bind; [exact (line_in_memory s0 s1 p W P t k z locale i off (cstr x) j' d eq_refl I1 Cw LP M1)| |].
    { intros h n (more & -> & Hs). exists more. split; [reflexivity|]. rewrite (text_bytes_cons d ds'). lia. }
    intros r s2 X. cbn [StartProofs4.saying]. destruct (effect d t) as [t'|] eqn:EF.
    + destruct X as (off' & -> & I2). eapply comes_weaken.
      * apply (IH j' j ds' rest fuel off' t' (k + dropped d t) (z + text_bytes [d]) s2 M2 P'); [rewrite E, app_length in L; lia|exact I2].
      * intros h n (more & -> & Hs). exists more. split; [reflexivity|]. rewrite (text_bytes_cons d ds'). lia.
      * intros said q s' (-> & Ld). split; [reflexivity|]. now apply (loaded_step _ _ _ _ _ _ _ _ _ t').
    + destruct X as (code & text & -> & -> & I2 & Ct). exact (reject_in_memory _ s0 s2 p W P t k z code text I2 Ct EF ds').
Qed.

Theorem parse_in_memory s locale contents ds : file_says locale contents ds -> (Z.of_nat (room contents) < int_max)%Z ->
  comes_to (fun h n => exists more, h = s_heap s ++ more /\ heap_size more + N.to_nat n <= loading_size contents ds)
    (fun said q s' =>
      (forall b, b < length (s_heap s) -> s_words s' b = s_words s b) /\
      exists more, s_heap s' = s_heap s ++ more /\
      exists r, parse_table_says locale contents = (said, Ok r) /\
        match r with
        | Some t => exists p own, q = Some p /\ table_at s' p t (mkCounters 0 0 0) own /\ (forall b, In b own -> length (s_heap s) <= b) /\
            live more = length own + replacing (entries ds) + defaults_lost ds /\ heap_size more + 2048 = loading_size contents ds
        | None => exists before c x after, q = None /\ ds = before ++ Entry c x :: after /\ said = [(Stderr, row_rejected c x ++ [newline])] /\
            ~ In 0%N (map fst (entries before)) /\ length (entries before) <= room contents /\ (c = 0%N \/ length (entries before) = room contents) /\
            live more = replacing (entries before) + defaults_lost before
        end)
    (c_parse_table locale contents s).
Proof.
  intros (ps & j & Pc & M) Ln. set (n := Z.of_nat (table_capacity (length contents))).
  assert (Rm : new_size n = room contents) by apply table_capacity_room.
  assert (Hn : (n < int_max)%Z).
  { rewrite <- Rm in Ln. unfold new_size in Ln. destruct (Z.leb_spec n 0); lia. }
  unfold c_parse_table. fold n. eapply comes_bind; [apply (init_in_memory s n ltac:(lia))| |].
  { intros h k [(-> & ->)|(-> & ->)]; [exists []; rewrite app_nil_r|exists [blank 64]]; (split; [reflexivity|]); unfold loading_size; rewrite <- Rm; [change (heap_size []) with 0|change (heap_size [blank 64]) with 64]; lia. }
  intros p s1 (-> & T & H1 & Sb & _).
  assert (Mal : forall s', ends (fun h k => h = s_heap s' /\ k = N.of_nat TABLE_BUFFER) (fun p s'' => p = mkPtr (length (s_heap s')) 0 /\ s'' = grow s' [blank (N.of_nat TABLE_BUFFER)])
     (bytes (malloc (N.of_nat TABLE_BUFFER)) s')).
  { intros s'. unfold bytes, malloc. destruct (refusal_of (s_heap s') (N.of_nat TABLE_BUFFER)) as [message|] eqn:E; [cbn; econstructor 2; eauto|]. rewrite tbind_done. constructor. auto. }
  eapply comes_bind; [apply Mal| |].
  { intros h k (-> & ->). eexists. split; [exact H1|]. unfold loading_size. rewrite <- Rm. match goal with |- context[heap_size ?x] => rewrite (sizes_of [64; 16 * N.of_nat (new_size n)]%N x eq_refl) end. unfold TABLE_BUFFER. cbn [map list_sum fold_right]. lia. }
  intros w s2 (-> & E2). eapply comes_bind; [apply Mal| |].
  { intros h k (-> & ->). subst s2. cbn [grow s_heap]. rewrite H1, <- app_assoc. eexists. split; [reflexivity|]. unfold loading_size. rewrite <- Rm. cbn [app]. match goal with |- context[heap_size ?x] => rewrite (sizes_of [64; 16 * N.of_nat (new_size n); N.of_nat TABLE_BUFFER]%N x eq_refl) end. unfold TABLE_BUFFER. cbn [map list_sum fold_right]. lia. }
  intros pr s3 (-> & E3).
  set (B := blank (N.of_nat TABLE_BUFFER)) in *.
  assert (H2 : s_heap s2 = s_heap s ++ [blank 64; blank (16 * N.of_nat (new_size n)); B]) by (subst s2; cbn [grow s_heap]; rewrite H1, <- app_assoc; reflexivity).
  assert (H3 : s_heap s3 = s_heap s ++ [blank 64; blank (16 * N.of_nat (new_size n)); B; B]) by (subst s3; cbn [grow s_heap]; rewrite H2, <- app_assoc; reflexivity).
  assert (L1 : length (s_heap s1) = length (s_heap s) + 2) by (rewrite H1, app_length; reflexivity).
  assert (L2 : length (s_heap s2) = length (s_heap s) + 3) by (rewrite H2, app_length; reflexivity).
  assert (I : parsing s s3 (mkPtr (length (s_heap s)) 0) (length (s_heap s1)) (length (s_heap s2)) (table_init n) 0 (64 + 16 * room contents + 2048)).
  { exists [length (s_heap s); S (length (s_heap s))], [blank 64; blank (16 * N.of_nat (new_size n)); B; B]. splits; auto; try lia.
    - apply (table_at_same s1); [|exact T]. intros b Ib. split.
      + rewrite H3, H1. change [blank 64; blank (16 * N.of_nat (new_size n)); B; B] with ([blank 64; blank (16 * N.of_nat (new_size n))] ++ [B; B]). rewrite app_assoc, <- H1.
        apply nth_error_app1. destruct Ib as [<-|[<-|[]]]; lia.
      + subst s3 s2. reflexivity.
    - apply wf_init.
    - rewrite table_init_eq. cbn [t_rows]. rewrite repeat_length, Rm, <- Rm. unfold new_size. destruct (Z.leb_spec n 0); [unfold int_max; cbn; lia|lia].
    - intros b [<-|[<-|[]]]; lia.
    - exists (repeat None (N.to_nat (N.of_nat TABLE_BUFFER))). rewrite H3, L1. rewrite nth_error_app2 by lia. replace (_ + 2 - _) with 2 by lia. rewrite repeat_length, Nat2N.id. auto.
    - exists (repeat None (N.to_nat (N.of_nat TABLE_BUFFER))). rewrite H3, L2. rewrite nth_error_app2 by lia. replace (_ + 3 - _) with 3 by lia. rewrite repeat_length, Nat2N.id. auto.
    - intros b Lb. subst s3 s2. apply Sb. intros [<-|[<-|[]]]; lia.
    - rewrite <- Rm. unfold B. match goal with |- context[heap_size ?x] => rewrite (sizes_of [64; 16 * N.of_nat (new_size n); N.of_nat TABLE_BUFFER; N.of_nat TABLE_BUFFER]%N x eq_refl) end. unfold TABLE_BUFFER. cbn [map list_sum fold_right]. lia. }
  eapply comes_weaken; [apply (loop_in_memory locale s _ _ _ ps false j ds contents (length contents) None (table_init n) 0 _ s3 M Pc (le_n _) I)|auto|].
  intros said q s' (-> & Ws & more & H & R). split; [exact Ws|]. exists more. split; [exact H|].
  exists (snd (StartProofs4.saying ds (table_init n))). split; [apply parse_saying; now exists ps, j|].
  assert (Hd : has_default (table_init n) = false) by reflexivity. rewrite Hd in R.
  destruct (snd (StartProofs4.saying ds (table_init n))) as [t'|].
  - destruct R as (own & Eq & T' & On & Ef & Lv & Sz). exists (mkPtr (length (s_heap s)) 0), own. splits; auto.
    destruct (replaced_entries contents ds t' Ef) as (<- & _). rewrite lost_from_eq in Lv. cbn [andb] in Lv. lia.
  - destruct R as (before & c & x & after & t1 & Ed & Ef & Er & Sd & Eq & Lv). exists before, c, x, after.
    destruct (replaced_entries contents before t1 Ef) as (Eo & Z & Le). rewrite lost_from_eq in Lv. cbn [andb] in Lv. splits; auto; [|lia].
    destruct (N.eq_dec c 0) as [->|Nz]; [now left|right]. destruct (Nat.eq_dec (length (entries before)) (room contents)) as [|Ne]; [assumption|]. exfalso.
    destruct (start_table contents) as (W0 & R0 & _ & _). cbv zeta in *. fold n in W0, R0.
    assert (Er2 : effects (before ++ [Entry c x]) (table_init n) = None).
    { clear - Ef Er. revert Ef. generalize (table_init n). induction before as [|d before IH]; intros t E; cbn [app effects] in *; [injection E as <-; now rewrite Er|].
      destruct (effect d t); [auto|discriminate]. }
    apply (effects_reject _ _ W0) in Er2. rewrite entries_app, map_app, app_length, R0 in Er2. cbn [entries flat_map map app fst length] in Er2. fold (entries before) in *.
    destruct Er2 as [Iz|G]; [apply in_app_or in Iz as [Iz|[Iz|[]]]; auto|]. cbn [t_used table_init] in G. lia.
Qed.

Lemma comes_then {A B} R (Q' : list (stream * str) -> A -> store_t -> Prop) (Q : list (stream * str) -> B -> store_t -> Prop) (m : wmem A) (k : A -> wmem B) s :
  comes_to R Q' (m s) -> (forall said a s', Q' said a s' -> exists b s'', k a s' = done (b, s'') /\ Q said b s'') -> comes_to R Q (wbind m k s).
Proof.
  intros E K. unfold wbind. destruct E as [said a s' q|h n message E r].
  - destruct (K _ _ _ q) as (b & s'' & Ek & q'). unfold tbind. rewrite Ek. cbn. rewrite app_nil_r. now constructor.
  - cbn. econstructor 2; eauto.
Qed.

(** Loading and freeing *)
Theorem load_and_free s locale contents ds : file_says locale contents ds -> (Z.of_nat (room contents) < int_max)%Z ->
  ~ In 0%N (map fst (entries ds)) -> length (entries ds) <= room contents ->
  comes_to (fun h n => exists more, h = s_heap s ++ more /\ heap_size more + N.to_nat n <= loading_size contents ds)
    (fun said _ s' => said = [] /\ (forall b, b < length (s_heap s) -> s_words s' b = s_words s b) /\
      exists more, s_heap s' = s_heap s ++ more /\ live more = replacing (entries ds) + defaults_lost ds)
    ((let$ q := c_parse_table locale contents in c_table_free q) s).
Proof.
  intros F Ln Z Lr. eapply comes_then; [exact (parse_in_memory s locale contents ds F Ln)|]. intros said q s' (Ws & more & H & r & E & R).
  destruct r as [t|].
  - destruct R as (p & own & -> & T & On & Lv & _).
    assert (Nb : t_builtin t = false /\ said = []).
    { rewrite (parse_saying locale contents ds F) in E. injection E as E1 E2. apply saying_some in E2 as (E2 & ->). now rewrite <- E1. }
    destruct Nb as (Nb & ->). destruct (free_in_memory s' p t _ own T Nb) as (h' & Fr & Wo & Lf). exists tt. eexists. split; [exact Fr|]. splits; auto. cbn [s_heap].
    rewrite H in Wo. destruct (without_new own (s_heap s) more h' On Wo) as (more' & E'). exists more'. split; [exact E'|]. rewrite E', H, !live_app in Lf. lia.
  - exfalso. destruct R as (before & c & x & after & _ & -> & _ & _ & _ & [->|Full] & _); rewrite entries_app in *; cbn [entries flat_map app] in *.
    + apply Z. rewrite map_app. apply in_or_app. right. now left.
    + rewrite app_length in Lr. cbn [length] in Lr. fold (entries before) in *. lia.
Qed.

Theorem parse_defined s locale contents why : (Z.of_nat (room contents) < int_max)%Z -> snd (c_parse_table locale contents s) <> UB why.
Proof.
  intros L. destruct (file_says_one locale contents) as (ds & F & _). pose proof (parse_in_memory s locale contents ds F L) as X.
  destruct X; discriminate.
Qed.

Theorem enough_memory s locale contents ds : file_says locale contents ds -> (Z.of_nat (room contents) < int_max)%Z ->
  (forall h n, heap_size h + N.to_nat n <= heap_size (s_heap s) + loading_size contents ds -> refusal_of h n = None) ->
  exists said q s', c_parse_table locale contents s = (said, Ok (q, s')).
Proof.
  intros F Ln E. destruct (parse_in_memory s locale contents ds F Ln) as [said q s' _|h n message R (more & -> & Hs)]; [eauto|].
  rewrite E in R; [discriminate|]. rewrite size_app. lia.
Qed.

Theorem denied_in_memory s n message : (Z.of_nat (table_capacity n) <= int_max)%Z ->
  comes_to (fun h k => h = s_heap s /\ k = 64%N \/ h = s_heap s ++ [blank 64] /\ k = (16 * N.of_nat (new_size (Z.of_nat (table_capacity n))))%N)
    (fun said q s' => said = [(Stderr, bs "Unable to open translation table: " ++ message ++ [newline])] /\ q = None /\
      (forall b, b < length (s_heap s) -> s_words s' b = s_words s b) /\ exists more, s_heap s' = s_heap s ++ more /\ live more = 2)
    (c_parse_denied n message s).
Proof.
  intros L. unfold c_parse_denied. eapply comes_bind; [apply (init_in_memory s _ L)|auto|]. intros p s1 (-> & T & H1 & Sb & _).
  unfold wbind, Words.saying, complain, say. cbn [tbind wret done quietly]. rewrite <- !app_assoc. constructor. splits; auto.
  - intros b Lb. apply Sb. intros [<-|[<-|[]]]; lia.
  - eexists. split; [exact H1|reflexivity].
Qed.

End loading.
