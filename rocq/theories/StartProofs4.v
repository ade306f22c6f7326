(** * What the program says about its tables: proofs *)

From Verif Require Import Base BaseFacts Stdio StdioFacts Table TableProofs ParseTable ParseTableSpec ParseTableProofs TableFileSpec TableFileProofs
  EscapeSpec GenSpec Filter Spoof Filelist File Prog Warnings WarningsProofs ConfigParse ConfigLoad Startup StartProofs StartOptions
  Main MainSpec CheckTable CheckSpec CheckProofs CheckProofs2 StartSpec StartProofs3.

Local Open Scope nat_scope.

(** ** One table *)

(** The row on a line that says there is one. *)
Lemma row_meant locale s j c x : length s <= 1023 -> means locale true s j (Entry c x) -> row_on s = Ok (c, x).
Proof.
  intros L M. apply means_iff in M. unfold meaning in M. unfold row_on. destruct (is_hash s); [discriminate|].
  pose proof (scan_number_at s) as I. pose proof (number_at_stops s) as NS.
  destruct (number_at s) as [[n r]|]; [|now destruct (word_at s) as [[w r]|]].
  destruct I as (k & -> & O & LR). destruct (n <? 0)%Z; [now destruct (word_at s) as [[w r']|]|].
  destruct r as [|d r]; [discriminate|]. injection M as _ <- <-. rewrite O. cbn [bind].
  rewrite scan_text_of by (eauto; lia). reflexivity.
Qed.

Lemma entry_inside locale i s j c x : means locale i s j (Entry c x) -> i = true.
Proof. intros M. now inversion M. Qed.

(** What a file says, and what the program says about it. *)
Fixpoint saying (ds : list directive) (t : table) : words * option table :=
  match ds with
  | [] => ([], Some t)
  | d :: r =>
    match effect d t, d with
    | Some t', _ => saying r t'
    | None, Entry c x => ([(Stderr, row_rejected c x ++ [newline])], None)
    | None, _ => ([], None)
    end
  end.

Lemma loop_saying locale : forall ps i j ds contents fuel off t,
  file_means locale i ps j ds -> pieces contents ps -> length contents <= fuel ->
  parse_table_loop_says fuel locale contents (mkPt i off t) = (fst (saying ds t), Ok (snd (saying ds t))).
Proof.
  induction ps as [|p ps IH]; intros i j ds contents fuel off t M P L.
  - inversion M; subst. inversion P; subst. destruct fuel; reflexivity.
  - inversion M as [|i' p' s j' d ps' k ds' V M1 M2]; subst.
    destruct (pieces_fgets _ _ _ P) as (rest & F & P' & E & NE).
    destruct fuel as [|fuel]; [rewrite E, app_length in L; lia|].
    cbn [parse_table_loop_says]. unfold next_line. change (TABLE_BUFFER - 1) with 1023. rewrite F.
    destruct contents as [|c contents]; [destruct p; [cbn in NE; lia|discriminate]|].
    apply visible_iff in V. subst s.
    assert (LP : length (cstr p) <= 1023).
    { pose proof (cstr_length p). apply fgets_bytes_spec in F. destruct F as (_ & F & _). lia. }
    destruct (line_meaning locale i (cstr p) off t j' d LP M1) as (off' & ->). rewrite quietly_ok. cbn [saying].
    destruct (effect d t) as [t'|] eqn:EF; cbn [option_map].
    + apply (IH j' j ds' rest fuel off' t'); auto. rewrite E, app_length in L. lia.
    + destruct d as [code text|text|]; try discriminate. pose proof (entry_inside _ _ _ _ _ _ M1) as ->.
      rewrite (row_meant _ _ _ _ _ LP M1). reflexivity.
Qed.

Lemma parse_saying locale contents ds : file_says locale contents ds ->
  parse_table_says locale contents =
  (fst (saying ds (table_init (Z.of_nat (table_capacity (length contents))))),
   Ok (snd (saying ds (table_init (Z.of_nat (table_capacity (length contents))))))).
Proof. intros (ps & j & P & M). unfold parse_table_says. eapply loop_saying; eauto. Qed.

Lemma saying_good ds : forall t, wf t -> ~ In 0%N (map fst (entries ds)) -> length (entries ds) <= length (t_rows t) - t_used t ->
  exists t', saying ds t = ([], Some t').
Proof.
  induction ds as [|d ds IH]; intros t W Z L; cbn [saying]; [eauto|].
  destruct d as [c x|x|]; cbn [effect].
  - cbn [entries flat_map app map In length] in Z, L. fold (entries ds) in *. destruct (table_put_cases t c x W) as [[E C]|(K & U & off & E)].
    + exfalso. destruct C as [->|U]; [apply Z; now left|]. lia.
    + destruct (table_put_accept t c x W K U) as (o & TP & _). pose proof (wf_put t c x W) as W'. rewrite TP in *. cbn [fst snd] in *.
      apply IH; auto. cbn [t_rows t_used]. rewrite set_row_length. lia.
  - apply IH; auto. now apply wf_set_default.
  - apply IH; auto.
Qed.

Lemma saying_bad ds : forall t before c x after, wf t -> entries ds = before ++ (c, x) :: after ->
  ~ In 0%N (map fst before) -> length before <= length (t_rows t) - t_used t ->
  c = 0%N \/ length before = length (t_rows t) - t_used t ->
  saying ds t = ([(Stderr, row_rejected c x ++ [newline])], None).
Proof.
  induction ds as [|d ds IH]; intros t before c x after W E Z L B; [now destruct before|]. cbn [saying].
  destruct d as [k y|y|]; cbn [effect].
  - cbn [entries flat_map app] in E. fold (entries ds) in E. destruct before as [|[k' y'] before].
    + cbn [app] in E. injection E as -> -> E. destruct (table_put_cases t c x W) as [[TP C]|(K & U & off & TP)].
      * rewrite TP. reflexivity.
      * exfalso. destruct B as [B|B]; [easy|]. cbn in B. lia.
    + cbn [app] in E. injection E as -> -> E. cbn [map fst In length] in Z, L, B.
      destruct (table_put_cases t k' y' W) as [[TP C]|(K & U & off & TP)].
      * exfalso. destruct C as [->|C]; [apply Z; now left|]. lia.
      * destruct (table_put_accept t k' y' W K U) as (o & TP' & _). pose proof (wf_put t k' y' W) as W'. rewrite TP' in *. cbn [fst snd] in *.
        apply (IH _ before c x after); auto; cbn [t_rows t_used]; rewrite set_row_length; lia.
  - apply (IH _ before c x after); auto. now apply wf_set_default.
  - apply (IH _ before c x after); auto.
Qed.

Lemma row_message c x cs : in_hex false c cs ->
  [(Stderr, row_rejected c x ++ [newline])] = on_stderr (bs "Failed to add row " ++ cs ++ bs " " ++ quoted x ++ bs " to translation table").
Proof.
  intros H. rewrite (in_hex_one _ _ _ _ (code_lower_hex c) H). unfold row_rejected, in_quotes, on_stderr, ended, quoted, code_lower.
  rewrite <- !app_assoc. reflexivity.
Qed.

Lemma says_at s path bytes : readable s path bytes -> table_at_says s path = parse_table_says (m_locale s) bytes.
Proof. unfold table_at_says. intros [-> |[-> ->]]; reflexivity. Qed.

(** A table and what is said about it. *)
Lemma table_read_says s path said found : table_read s path said found ->
  exists t, table_at_says s path = (said, Ok t) /\ (if found then t <> None else t = None).
Proof.
  intros [F D|m F D|bytes ds R S Z L|bytes ds before c x after cs R S E Z L B H].
  - exists None. unfold table_at_says. rewrite F, D. auto.
  - exists None. unfold table_at_says. rewrite F, D. auto.
  - rewrite (says_at _ _ _ R), (parse_saying _ _ _ S). destruct (start_table bytes) as (W & RM & _). cbv zeta in *.
    set (t0 := table_init _) in *. clearbody t0. rewrite <- RM in L. destruct (saying_good ds t0 W Z L) as (t & ->).
    exists (Some t). split; [reflexivity|discriminate].
  - rewrite (says_at _ _ _ R), (parse_saying _ _ _ S). destruct (start_table bytes) as (W & RM & _). cbv zeta in *.
    set (t0 := table_init _) in *. clearbody t0. rewrite <- RM in L, B. rewrite (saying_bad ds t0 before c x after W E Z L B).
    exists None. cbn [fst snd]. rewrite (row_message _ _ _ H). auto.
Qed.

(** The first entry that is refused, if there is one. *)
Lemma first_refused (l : list (N * str)) : forall room, (~ In 0%N (map fst l) /\ length l <= room) \/
  exists before c x after, l = before ++ (c, x) :: after /\ ~ In 0%N (map fst before) /\ length before <= room /\
    (c = 0%N \/ length before = room).
Proof.
  induction l as [|[c x] l IH]; intros room; [left; cbn; split; [easy|lia]|].
  destruct (N.eq_dec c 0) as [->|C]; [right; exists [], 0%N, x, l; cbn; splits; auto; lia|].
  destruct room as [|room]; [right; exists [], c, x, l; cbn; splits; auto; lia|].
  destruct (IH room) as [[Z L]|(before & c' & x' & after & -> & Z & L & B)].
  - left. cbn. split; [intros [H|H]; auto|lia].
  - right. exists ((c, x) :: before), c', x', after. cbn. splits; auto; [intros [H|H]; auto|lia|]. destruct B; auto.
Qed.

Lemma every_readable s path bytes : readable s path bytes -> exists said found, table_read s path said found.
Proof.
  intros R. destruct (file_says_one (m_locale s) bytes) as (ds & S & _).
  destruct (first_refused (entries ds) (room bytes)) as [[Z L]|(before & c & x & after & E & Z & L & B)].
  - eexists. eexists. eapply tr_good; eauto.
  - eexists. eexists. eapply tr_rejected; eauto. apply code_lower_hex.
Qed.

Lemma every_table s path : exists said found, table_read s path said found.
Proof.
  destruct (e_files (m_env s) path) as [| |bytes] eqn:F.
  - destruct (m_denied s path) as [m|] eqn:D; eexists; eexists; [eapply tr_denied|apply tr_missing]; eauto.
  - apply (every_readable s path []). now right.
  - apply (every_readable s path bytes). now left.
Qed.

(** ** Looking for a table *)

Lemma strlen_short p : (strlen p <? MAX_PATH_LEN)%N = (length p <? 256).
Proof.
  unfold strlen, MAX_PATH_LEN. destruct (Nat.ltb_spec (length p) 256), (N.ltb_spec (N.of_nat (length p)) 256); try reflexivity; exfalso; lia.
Qed.

Fixpoint look (s : system) (ps : list str) : talk (option table) :=
  match ps with
  | [] => done None
  | p :: ps => let% t := try_table_says (table_at_says s) p in match t with Some t => done (Some t) | None => look s ps end
  end.

Lemma find_looks s name : filter_find_table_says (e_datadir (m_env s)) (table_at_says s) name = look s (places s name).
Proof.
  unfold filter_find_table_says, places. set (d := e_datadir (m_env s)).
  assert (X : look s [bs "/usr/share/detox/" ++ name; bs "/usr/local/share/detox/" ++ name] =
    (let% t := try_table_says (table_at_says s) (bs "/usr/share/detox/" ++ name) in
     match t with Some t => done (Some t) | None => try_table_says (table_at_says s) (bs "/usr/local/share/detox/" ++ name) end)).
  { cbn [look]. apply tbind_ext. intros [t|]; [reflexivity|].
    transitivity (tbind (try_table_says (table_at_says s) (bs "/usr/local/share/detox/" ++ name)) (fun t => done t)); [|apply tbind_id].
    apply tbind_ext. now intros [t|]. }
  destruct d as [d|].
  - cbn [app]. cbn [look] in X |- *. apply tbind_ext. intros [t|]; [reflexivity|]. symmetry. exact X.
  - rewrite tbind_done. symmetry. exact X.
Qed.

Lemma looked_says s ps said found : looked_for s ps said found ->
  exists t, look s ps = (said, Ok t) /\ (if found then t <> None else t = None).
Proof.
  induction 1 as [|p ps said found L _ IH|p ps said L T|p ps said said' found L T _ IH]; cbn [look].
  - exists None. auto.
  - unfold try_table_says. rewrite strlen_short. destruct (Nat.ltb_spec (length p) 256); [lia|]. rewrite tbind_done. exact IH.
  - unfold try_table_says. rewrite strlen_short. destruct (Nat.ltb_spec (length p) 256); [|lia].
    destruct (table_read_says _ _ _ _ T) as ([t|] & -> & F); [|easy]. exists (Some t). cbn. rewrite app_nil_r. auto.
  - unfold try_table_says. rewrite strlen_short. destruct (Nat.ltb_spec (length p) 256); [|lia].
    destruct (table_read_says _ _ _ _ T) as (t & -> & ->). destruct IH as (t & -> & F). exists t. auto.
Qed.

Lemma every_look s ps : exists said found, looked_for s ps said found.
Proof.
  induction ps as [|p ps (said & found & IH)]; [eexists; eexists; constructor|].
  destruct (Nat.le_gt_cases 256 (length p)) as [L|L]; [exists said, found; now apply lf_long|].
  destruct (every_table s p) as (said' & [|] & T).
  - eexists. eexists. eapply lf_found; eauto.
  - eexists. eexists. eapply lf_not_here; eauto.
Qed.

(** ** The tables of a sequence *)

Lemma uses_name c name : uses_table c name <-> default_table_name c = Some name.
Proof.
  split; [now intros []|]. destruct c; try discriminate; intros [= <-]; constructor.
Qed.

Lemma builtin_known b : In b builtin_names <-> filter_load_builtin_by_filename b <> None.
Proof.
  unfold builtin_names, filter_load_builtin_by_filename. cbn [map In]. split.
  - intros H. repeat (destruct H as [<-|H]; [discriminate|]). easy.
  - destruct (str_eqb b (bs "iso8859_1")) eqn:E1; [apply ConfigProofs.str_eqb_iff in E1; auto|].
    destruct (str_eqb b (bs "unicode")) eqn:E2; [apply ConfigProofs.str_eqb_iff in E2; auto|].
    destruct (str_eqb b (bs "safe")) eqn:E3; [apply ConfigProofs.str_eqb_iff in E3; auto|].
    destruct (str_eqb b (bs "cp1252")) eqn:E4; [apply ConfigProofs.str_eqb_iff in E4; auto|]. now intros [].
Qed.

Lemma filter_says s f said ok : filter_prepared s f said ok ->
  exists r, filter_load_table_says (e_datadir (m_env s)) (table_at_says s) f = (said, r) /\
    (if ok then exists t, r = Ok t else r = Exit 1).
Proof.
  unfold filter_load_table_says. cbv zeta.
  intros [NU|name b U B K|name b U B K|name file said' U B F T|name file said' U B F T|name said' found U B F T].
  - destruct (default_table_name (f_cleaner f)) as [name|] eqn:E; [apply uses_name in E; now apply NU in E|]. eexists. split; [reflexivity|eauto].
  - apply uses_name in U. rewrite U, B. apply builtin_known in K. destruct (filter_load_builtin_by_filename b); [|easy].
    eexists. split; [reflexivity|eauto].
  - apply uses_name in U. rewrite U, B. destruct (filter_load_builtin_by_filename b) eqn:E.
    + elim K. apply builtin_known. congruence.
    + eexists. split; reflexivity.
  - apply uses_name in U. rewrite U, B, F. destruct (table_read_says _ _ _ _ T) as ([t|] & -> & X); [|easy].
    cbn. rewrite app_nil_r. eauto.
  - apply uses_name in U. rewrite U, B, F. destruct (table_read_says _ _ _ _ T) as (t & -> & ->). eexists. split; reflexivity.
  - rewrite (proj1 (uses_name _ _) U), B, F, find_looks. destruct (looked_says _ _ _ _ T) as (t & -> & X).
    destruct t as [t|]; [cbn; rewrite app_nil_r; eauto|].
    destruct (filter_load_builtin (f_cleaner f)) eqn:E; [cbn; rewrite app_nil_r; eauto|]. exfalso. destruct U; discriminate.
Qed.

Lemma every_filter s f : exists said ok, filter_prepared s f said ok.
Proof.
  destruct (default_table_name (f_cleaner f)) as [name|] eqn:U.
  2: { exists [], true. apply fp_plain. intros name N. apply uses_name in N. congruence. }
  apply uses_name in U. destruct (f_builtin f) as [b|] eqn:B.
  - destruct (in_dec (list_eq_dec Byte.byte_eq_dec) b builtin_names) as [I|I]; eexists; eexists; [eapply fp_builtin|eapply fp_no_builtin]; eauto.
  - destruct (f_filename f) as [file|] eqn:F.
    + destruct (every_table s file) as (said & [|] & T); eexists; eexists; [eapply fp_file|eapply fp_no_file]; eauto.
    + destruct (every_look s (places s name)) as (said & found & L). eexists. eexists. eapply fp_default; eauto.
Qed.

Lemma prepared_says s fs said ok : prepared s fs said ok ->
  exists r, review_filters_says (e_datadir (m_env s)) (table_at_says s) fs = (said, r) /\
    (if ok then exists fs', r = Ok fs' else r = Exit 1).
Proof.
  induction 1 as [|f fs said P|f fs said said' ok P _ IH]; cbn [review_filters_says].
  - eexists. split; [reflexivity|eauto].
  - destruct (filter_says _ _ _ _ P) as (r & -> & ->). eexists. split; reflexivity.
  - destruct (filter_says _ _ _ _ P) as (r & -> & (t & ->)). destruct IH as (r & -> & R). destruct ok.
    + destruct R as (fs' & ->). cbn. rewrite app_nil_r. eauto.
    + subst r. cbn. eauto.
Qed.

Lemma every_prepared s fs : exists said ok, prepared s fs said ok.
Proof.
  induction fs as [|f fs (said & ok & IH)]; [eexists; eexists; constructor|].
  destruct (every_filter s f) as (said' & [|] & P).
  - eexists. eexists. eapply pd_next; eauto.
  - eexists. eexists. eapply pd_stop; eauto.
Qed.

Lemma review_says s seq said ok : prepared s (s_filters seq) said ok ->
  exists r, sequence_review_says (e_datadir (m_env s)) (table_at_says s) seq = (said, r) /\
    (if ok then exists seq', r = Ok seq' else r = Exit 1).
Proof.
  intros P. unfold sequence_review_says. destruct (prepared_says _ _ _ _ P) as (r & -> & R). destruct ok.
  - destruct R as (fs' & ->). cbn. rewrite app_nil_r. eauto.
  - subst r. cbn. eauto.
Qed.
