(** * Proofs about loading tables in memory *)

From Coq Require Import Permutation.
From Verif Require Import Base BaseFacts Stdio StdioFacts Table TableProofs TableSpec BuiltinTables ParseTable ParseTableSpec ParseTableProofs TableFileSpec TableFileProofs EscapeProofs Filter ConfigParse ConfigLoad Prog Warnings Startup
  Mem MemSpec MemFacts CFiltersProofs CFileProofs Words WordsSpec WordsFacts CTable CTableProofs CTableProofs2 LoadSpec CParseTable CParseTableProofs CParseTableProofs2 CConfig LinkedSpec CConfigProofs
  CConfigProofs2 CConfigProofs5 CConfigProofs7 CLoad CLoadSpec CLoadProofs4 CReview CReviewSpec.

Local Open Scope nat_scope.

(** ** The static tables *)

Definition rows_of (t : table) : list (N * str) := flat_map (fun r => match r_data r with Some d => [(r_key r, d)] | None => [] end) (t_rows t).

Lemma wf_sent n h : wf (send (new_table n false) h).
Proof.
  assert (X : wf (new_table n false)) by (rewrite new_table_eq; apply wf_empty, new_size_pos).
  revert X. generalize (new_table n false). induction h as [|[k d] h IH]; intros t X; [exact X|]. cbn [send]. apply IH. now apply wf_put.
Qed.

Lemma wf_static x : wf (static_value x).
Proof.
  assert (X : forall n t, t_rows (send (new_table n false) (rows_of t)) = t_rows t /\ t_used (send (new_table n false) (rows_of t)) = t_used t /\ t_hash t = false /\ forallb (fun r => match r_data r with Some d => length d <=? t_maxdata t | None => true end) (t_rows t) = true -> wf t).
  { intros n t (E1 & E2 & E3 & E4). destruct (wf_sent n (rows_of t)) as [H1 H2 H3 H4 H5 H6]. unfold t_length in *. rewrite E1 in *. rewrite E2 in *. constructor; unfold t_length; auto.
    2: { intros i d L Ed. rewrite forallb_forall in E4. specialize (E4 (row_at (t_rows t) i) (nth_In _ _ L)). rewrite Ed in E4. now apply Nat.leb_le. }
    intros i L O. destruct (H4 i L O) as [(Eh & _)|(A & _)]; [|right; split; [exact A|rewrite E3; discriminate]].
    exfalso. revert Eh. assert (Y : forall h u, t_hash u = false -> t_hash (send u h) = false); [|rewrite Y; [discriminate|now rewrite new_table_eq]].
    induction h as [|[k d] h IH]; intros u Hu; [exact Hu|]. cbn [send]. apply IH. rewrite table_put_hash. exact Hu. }
  destruct x; [apply (X 55%Z)|apply (X 96%Z)|apply (X 163%Z)|apply (X 32%Z)]; (split; [vm_compute; reflexivity|split; [vm_compute; reflexivity|split; [reflexivity|vm_compute; reflexivity]]]).
Qed.

(** ** Memory that only grows *)

Definition extends (s s' : store_t) : Prop := (exists more, s_heap s' = s_heap s ++ more) /\ forall b, b < length (s_heap s) -> s_words s' b = s_words s b.

Lemma extends_refl s : extends s s.
Proof. split; [|auto]. exists []. now rewrite app_nil_r. Qed.

Lemma extends_trans a b c : extends a b -> extends b c -> extends a c.
Proof.
  intros ((m & E) & W) ((m' & E') & W'). split.
  - exists (m ++ m'). now rewrite E', E, app_assoc.
  - intros i L. rewrite W' by (rewrite E, app_length; lia). auto.
Qed.

Lemma extends_at s s' b : extends s s' -> b < length (s_heap s) -> same_at s s' b.
Proof. intros ((m & E) & W) L. split; [rewrite E; now apply nth_error_app1|auto]. Qed.

Lemma extends_cstr s s' p x : extends s s' -> cstr_at (s_heap s) p x -> cstr_at (s_heap s') p x.
Proof. intros ((m & E) & _) (cells & rest & N & X). exists cells, rest. split; [|exact X]. rewrite E. now apply nth_old. Qed.

Lemma extends_length s s' : extends s s' -> length (s_heap s) <= length (s_heap s').
Proof. intros ((m & E) & _). rewrite E, app_length. lia. Qed.

Lemma beyond_extends s s' h n : extends s s' -> beyond s' h n -> beyond s h n.
Proof. intros ((m & E) & _) (m' & ->). exists (m ++ m'). now rewrite E, app_assoc. Qed.

(** A table in new memory *)
Definition gets (s : store_t) (r : option table) (q : option ptr) (s' : store_t) : Prop :=
  extends s s' /\ exists own, table_of s' q r 0 own /\ forall b, In b own -> length (s_heap s) <= b.

Lemma gets_none s s' : extends s s' -> gets s None None s'.
Proof. intros E. split; [exact E|]. exists []. split; [reflexivity|]. intros b []. Qed.

Lemma gets_after s s1 r q s' : extends s s1 -> gets s1 r q s' -> gets s r q s'.
Proof. intros E (E' & own & T & N). split; [exact (extends_trans _ _ _ E E')|]. exists own. split; [exact T|]. intros b I. apply N in I. apply extends_length in E. lia. Qed.

Section review.

Context {al : allocator} (Lal : limited al).
Context (literal : str -> ptr) (static : static_table -> ptr) (denied_size : str -> nat) (sys : system).
Context (Dec : decent sys denied_size).

Definition never (h : heap) (n : N) : Prop := False.

Lemma comes_follows {A B} (R R' : heap -> N -> Prop) (R0 : heap -> N -> Prop) (Q : B -> A -> store_t -> Prop) (Q0 : list (stream * str) -> A -> store_t -> Prop) pure t :
  comes_to R0 Q0 t -> (forall h n, R0 h n -> R h n) -> (forall said a s, Q0 said a s -> exists b, pure = (said, Ok b) /\ Q b a s) -> follows R R' Q pure t.
Proof.
  intros C HR HQ. destruct C as [said a s' q|h n message E r].
  - destruct (HQ _ _ _ q) as (b & E & X). eapply follows_done; eauto.
  - apply (follows_refused R R' Q pure [] (fst pure) h n message); auto.
Qed.

Lemma parse_contents_ok s locale contents : (Z.of_nat (room contents) < int_max)%Z ->
  follows (beyond s) never (gets s) (parse_table_says locale contents) (c_parse_table locale contents s).
Proof.
  intros L. destruct (file_says_one locale contents) as (ds & F & _). eapply comes_follows; [exact (parse_in_memory s locale contents ds F L)| |].
  - intros h n (more & E & _). now exists more.
  - intros said q s' (W & more & H & r & E & X). exists r. split; [exact E|]. split; [split; [now exists more|exact W]|]. destruct r as [t|].
    + destruct X as (p & own & -> & T & On & _). exists own. split; [|exact On]. exists (mkCounters 0 0 0). split; [exact T|]. unfold seldom. cbn. lia.
    + destruct X as (? & ? & ? & ? & -> & _). exists []. split; [reflexivity|]. intros b [].
Qed.

Lemma table_file_ok s filename path : cstr_at (s_heap s) filename path ->
  follows (beyond s) never (gets s) (table_at_says sys path) (c_parse_table_file denied_size sys filename s).
Proof.
  intros C. unfold c_parse_table_file, table_at_says. rewrite (wbind_done _ _ _ _ _ (bytes_done _ _ _ _ (read_ok _ _ _ C))).
  replace (mkStore (s_heap s) (s_words s)) with s by now destruct s. destruct Dec as (D1 & D2 & _). specialize (D1 path).
  destruct (e_files (m_env sys) path) as [| |contents]; cbn [contents_of] in D1; [|now apply parse_contents_ok..].
  destruct (m_denied sys path) as [message|].
  - eapply comes_follows; [exact (denied_in_memory s _ message (D2 path))| |].
    + intros h n [(-> & _)|(-> & _)]; [exists []; now rewrite app_nil_r|eexists; reflexivity].
    + intros said q s' (-> & -> & W & more & H & _). exists None. split; [unfold complain, say; cbn [tbind done quietly app]; rewrite <- ?app_assoc; reflexivity|]. apply gets_none. split; [now exists more|exact W].
  - eapply follows_done; [reflexivity|]. apply gets_none, extends_refl.
Qed.

(** ** The directories *)

(** The block after those of [s] is for paths. *)
Definition trying (s : store_t) (r : option table) (q : option ptr) (s' : store_t) : Prop :=
  (exists cells more, s_heap s' = s_heap s ++ Some cells :: more /\ length cells = 256) /\ (forall b, b < length (s_heap s) -> s_words s' b = s_words s b) /\
  exists own, table_of s' q r 0 own /\ forall b, In b own -> length (s_heap s) < b.

Lemma table_of_same s s' q t k own : (forall b, In b own -> same_at s s' b) -> table_of s q t k own -> table_of s' q t k own.
Proof. intros S. destruct q as [q|], t as [t|]; cbn; auto. intros (c & T & K). exists c. split; [|exact K]. now apply (table_at_same s). Qed.

Lemma snprintf_ok h b cells text : nth_error h b = Some (Some cells) -> length cells = 256 ->
  exists cells1 rest, c_snprintf (mkPtr b 0) MAX_PATH_LEN text h = done (tt, set_block h b (Some cells1)) /\ length cells1 = 256 /\ cells1 = map Some (firstn 255 text) ++ Some NUL :: rest.
Proof.
  intros Nc Lc. unfold c_snprintf. change (N.to_nat MAX_PATH_LEN - 1) with 255.
  assert (Le : length (firstn 255 text) <= 255) by apply firstn_le_length. set (x := firstn 255 text) in *. clearbody x.
  eexists. eexists. split.
  - rewrite (mbind_done _ _ _ _ _ (write_over (x ++ [NUL]) h b 0 cells Nc ltac:(rewrite app_length; cbn [length]; lia))). reflexivity.
  - cbn [firstn app]. split.
    + rewrite app_length, map_length, skipn_length. rewrite app_length. cbn [length]. lia.
    + rewrite map_app, <- app_assoc. cbn [map app]. reflexivity.
Qed.

Lemma set_middle (h : heap) x y more : set_block (h ++ x :: more) (length h) y = h ++ y :: more.
Proof. induction h as [|z h IH]; cbn; [reflexivity|]. now rewrite IH. Qed.

Lemma try_table_ok s0 s directory check name : trying s0 None None s -> nonul directory -> (Z.of_nat (length directory + length name) <= int_max)%Z ->
  cstr_at (s_heap s0) check name ->
  follows (beyond s0) never (trying s0) (try_table_says (table_at_says sys) (directory ++ name)) (c_try_table denied_size sys (mkPtr (length (s_heap s0)) 0) directory check s).
Proof.
  intros ((cells & more & H & Lc) & W & _) Nd Zl C. set (B := length (s_heap s0)).
  assert (Cs : cstr_at (s_heap s) check name).
  { destruct C as (cs & rest & N & X). exists cs, rest. split; [|exact X]. rewrite H. now apply nth_old. }
  assert (Nn : nonul (directory ++ name)) by (apply nonul_app; split; [exact Nd|exact (cstr_at_nonul _ _ _ C)]).
  unfold c_try_table, try_table_says. rewrite (wbind_done _ _ _ _ _ (bytes_done _ _ _ _ (read_ok _ _ _ Cs))).
  replace (mkStore (s_heap s) (s_words s)) with s by now destruct s. set (text := directory ++ name) in *.
  assert (Nc : nth_error (s_heap s) B = Some (Some cells)) by (rewrite H; unfold B; rewrite nth_error_app2, Nat.sub_diag by lia; reflexivity).
  destruct (snprintf_ok (s_heap s) B cells text Nc Lc) as (cells1 & rest & Sn & L1 & E1). rewrite (wbind_done _ _ _ _ _ (bytes_done _ _ _ _ Sn)).
  set (s1 := mkStore (set_block (s_heap s) B (Some cells1)) (s_words s)).
  assert (H1 : s_heap s1 = s_heap s0 ++ Some cells1 :: more) by (cbn [s1 s_heap]; rewrite H; apply set_middle).
  assert (Zt : (Z.of_N (strlen text) <= int_max)%Z) by (unfold strlen, text; rewrite app_length; lia).
  assert (Es : (snprintf_result text <? Z.of_N MAX_PATH_LEN)%Z = (strlen text <? MAX_PATH_LEN)%N).
  { unfold snprintf_result. apply Z.leb_le in Zt as ->. destruct (Z.ltb_spec (Z.of_N (strlen text)) (Z.of_N MAX_PATH_LEN)), (N.ltb_spec (strlen text) MAX_PATH_LEN); auto; lia. }
  rewrite Es. destruct (N.ltb_spec (strlen text) MAX_PATH_LEN) as [Sh|Sh].
  - unfold strlen, MAX_PATH_LEN in Sh. assert (Sl : length text <= 255) by lia. rewrite firstn_all2 in E1 by exact Sl.
    assert (C1 : cstr_at (s_heap s1) (mkPtr B 0) text).
    { exists cells1, rest. cbn [p_block p_off]. rewrite H1. unfold B. rewrite nth_error_app2, Nat.sub_diag by lia. splits; auto. }
    eapply follows_weaken; [exact (table_file_ok s1 (mkPtr B 0) text C1)| |auto|].
    + intros h n (m & ->). rewrite H1, <- app_assoc. eexists; reflexivity.
    + intros r q s2 (((m & H2) & W2) & own & T & On). split; [|split].
      * exists cells1, (more ++ m). split; [|exact L1]. now rewrite H2, H1, <- app_assoc.
      * intros b Lb. rewrite W2 by (rewrite H1, app_length; cbn [length]; lia). cbn [s1 s_words]. auto.
      * exists own. split; [exact T|]. intros b I. apply On in I. rewrite H1, app_length in I. cbn [length] in I. lia.
  - eapply follows_done; [reflexivity|]. split; [|split].
    + now exists cells1, more.
    + exact W.
    + exists []. split; [reflexivity|]. intros b [].
Qed.

Lemma follows_ret {A B} (R R' : heap -> N -> Prop) (Q : B -> A -> store_t -> Prop) b a s : Q b a s -> follows R R' Q (done b) (wret a s).
Proof. intros X. eapply follows_done; [reflexivity|exact X]. Qed.

Lemma follows_map {A B B'} (R R' : heap -> N -> Prop) (Q : B -> A -> store_t -> Prop) (Q' : B' -> A -> store_t -> Prop) (f : B -> B') pure t :
  follows R R' Q pure t -> (forall b a s, Q b a s -> Q' (f b) a s) -> follows R R' Q' (let% b := pure in done (f b)) t.
Proof.
  intros F K. destruct F.
  - rewrite H. eapply follows_done; [cbn; rewrite app_nil_r; reflexivity|auto].
  - rewrite H. now apply follows_exit.
  - rewrite H. now apply follows_ub.
  - destruct pure as [o [b| |]]; cbn in H |- *; subst o; apply (follows_refused R R' Q' _ said said' h n message); auto; cbn; rewrite ?app_nil_r; reflexivity.
  - eapply follows_unnoticed; eauto.
Qed.

Lemma NoDup_apart_app (a b : list nat) : NoDup a -> NoDup b -> (forall x, In x a -> ~ In x b) -> NoDup (a ++ b).
Proof.
  intros Na Nb D. induction Na as [|x a N Na IH]; [exact Nb|]. cbn. constructor.
  - rewrite in_app_iff. intros [I|I]; [easy|]. exact (D x (or_introl eq_refl) I).
  - apply IH. intros y I. apply D. now right.
Qed.

Lemma find_table_ok s check name : cstr_at (s_heap s) check name -> length name <= 16 ->
  follows (beyond s) never (gets s) (filter_find_table_says (e_datadir (m_env sys)) (table_at_says sys) name) (c_filter_find_table denied_size sys check s).
Proof.
  intros C Ln. unfold c_filter_find_table, filter_find_table_says. set (B := length (s_heap s)).
  assert (A : bytes (c_alloca MAX_PATH_LEN) s = done (mkPtr B 0, grow s [blank 256])) by reflexivity.
  rewrite (wbind_done _ _ _ _ _ A). clear A.
  assert (T0 : trying s None None (grow s [blank 256])).
  { split; [|split].
    - exists (repeat None 256), []. split; [reflexivity|apply repeat_length].
    - reflexivity.
    - exists []. split; [reflexivity|]. intros b []. }
  assert (Big : (1000 <= int_max)%Z) by (apply Z.leb_le; reflexivity).
  assert (Sh : (Z.of_nat (length (bs "/usr/share/detox/") + length name) <= int_max)%Z) by (change (length (bs "/usr/share/detox/")) with 17; lia).
  assert (Lo : (Z.of_nat (length (bs "/usr/local/share/detox/") + length name) <= int_max)%Z) by (change (length (bs "/usr/local/share/detox/")) with 23; lia).
  assert (Nsh : nonul (bs "/usr/share/detox/")) by (apply nonul_dec; vm_compute; reflexivity).
  assert (Nlo : nonul (bs "/usr/local/share/detox/")) by (apply nonul_dec; vm_compute; reflexivity).
  assert (F : follows (beyond s) never (trying s)
    (let% t := match e_datadir (m_env sys) with Some d => try_table_says (table_at_says sys) (d ++ bs "/detox/" ++ name) | None => done None end in
     match t with
     | Some t => done (Some t)
     | None =>
       let% t := try_table_says (table_at_says sys) (bs "/usr/share/detox/" ++ name) in
       match t with Some t => done (Some t) | None => try_table_says (table_at_says sys) (bs "/usr/local/share/detox/" ++ name) end
     end)
    ((let$ table := match e_datadir (m_env sys) with Some d => c_try_table denied_size sys (mkPtr B 0) (d ++ bs "/detox/") check | None => wret None end in
      match table with
      | Some _ => wret table
      | None =>
        let$ table := c_try_table denied_size sys (mkPtr B 0) (bs "/usr/share/detox/") check in
        match table with Some _ => wret table | None => c_try_table denied_size sys (mkPtr B 0) (bs "/usr/local/share/detox/") check end
      end) (grow s [blank 256]))).
  { apply (follows_bind _ _ (trying s)).
    - destruct Dec as (_ & _ & D). destruct (e_datadir (m_env sys)) as [d|].
      + rewrite app_assoc. destruct D as (Nd & Zd). apply try_table_ok; auto.
        * apply nonul_app. split; [exact Nd|]. apply nonul_dec. vm_compute. reflexivity.
        * rewrite app_length. change (length (bs "/detox/")) with 7. lia.
      + now apply follows_ret.
    - intros t q s1 T1. pose proof T1 as (_ & _ & own & X & _). destruct q as [q|], t as [t|]; cbn in X; try easy; [now apply follows_ret|].
      apply (follows_bind _ _ (trying s)).
      + now apply try_table_ok.
      + intros t q s2 T2. pose proof T2 as (_ & _ & own2 & X2 & _). destruct q as [q|], t as [t|]; cbn in X2; try easy; [now apply follows_ret|]. now apply try_table_ok. }
  match type of F with follows _ _ _ ?p (?m ?x) => set (pure := p) in *; set (body := m) in * end.
  assert (E : pure = let% t := pure in done t) by (destruct pure as [o [| |]]; cbn; rewrite ?app_nil_r; reflexivity). rewrite E. clear E.
  rewrite <- wbind_assoc. change (follows (beyond s) never (gets s) (let% t := pure in done t) (Words.wbind body (fun table => let$ _ := bytes (free (mkPtr B 0)) in wret table) (grow s [blank 256]))).
  apply (follows_bind _ _ (trying s)); [exact F|]. clear F body pure. intros t q s1 ((cells & more & H & _) & W & own & T & On).
  assert (Nc : nth_error (s_heap s1) B = Some (Some cells)) by (rewrite H; unfold B; rewrite nth_error_app2, Nat.sub_diag by lia; reflexivity).
  rewrite (wbind_done _ _ _ _ _ (wfree_ok s1 B cells Nc)). apply follows_ret. split.
  - split; [|exact W]. exists (None :: more). cbn [s_heap]. rewrite H. apply set_middle.
  - exists own. split.
    + apply (table_of_same s1); [|exact T]. intros b I. split; [|reflexivity]. cbn [s_heap]. apply set_other. apply On in I. fold B in I. lia.
    + intros b I. apply On in I. lia.
Qed.

(** ** The built-in tables *)

Lemma load_builtin_ok s own x pure : statics_in s static own -> pure = Some (table_resize (static_value x) 256 true) ->
  follows (beyond s) never (gets s) (done pure) (c_load_builtin static x s).
Proof.
  intros St ->. destruct (St x) as (c & blocks & T & _). unfold c_load_builtin.
  assert (Big : (256 <= int_max)%Z) by (apply Z.leb_le; reflexivity). assert (Ow : (Z.of_nat (t_overwrites (static_value x)) < int_max)%Z) by (destruct x; apply Z.ltb_lt; reflexivity).
  eapply follows_ends; [exact (resize_seen s (static x) (static_value x) c blocks 256 true Lal T (wf_static x) Big Ow)|intros h k (more & -> & _); now exists more|].
  intros q s' (-> & own' & more & _ & Tq & H & W & On & _). apply follows_ret. split; [split; [now exists more|exact W]|].
  exists own'. split; [|exact On]. eexists. split; [exact Tq|]. unfold seldom. cbn. lia.
Qed.

Lemma equal_step {A} s p x q y (k : bool -> wmem A) : cstr_at (s_heap s) p x -> cstr_at (s_heap s) q y -> Words.wbind (bytes (c_equal p q)) k s = k (str_eqb x y) s.
Proof. intros Cx Cy. rewrite (wbind_done _ _ _ _ _ (bytes_done _ _ _ _ (equal_ok _ _ _ _ _ Cx Cy))). now destruct s. Qed.

Lemma read_step {A} s p x (k : str -> wmem A) : cstr_at (s_heap s) p x -> Words.wbind (bytes (c_read p)) k s = k x s.
Proof. intros Cx. rewrite (wbind_done _ _ _ _ _ (bytes_done _ _ _ _ (read_ok _ _ _ Cx))). now destruct s. Qed.

Lemma by_filename_ok s own p name : statics_in s static own -> literals_in (s_heap s) literal review_literals -> cstr_at (s_heap s) p name ->
  follows (beyond s) never (gets s) (done (filter_load_builtin_by_filename name)) (c_filter_load_builtin_by_filename literal static p s).
Proof.
  intros St Li C. unfold c_filter_load_builtin_by_filename, filter_load_builtin_by_filename.
  rewrite (equal_step _ _ _ _ _ _ C (Li (bs "iso8859_1") ltac:(cbn; tauto))). destruct (str_eqb name (bs "iso8859_1")); [now apply (load_builtin_ok s own)|].
  rewrite (equal_step _ _ _ _ _ _ C (Li (bs "unicode") ltac:(cbn; tauto))). destruct (str_eqb name (bs "unicode")); [now apply (load_builtin_ok s own)|].
  rewrite (equal_step _ _ _ _ _ _ C (Li (bs "safe") ltac:(cbn; tauto))). destruct (str_eqb name (bs "safe")); [now apply (load_builtin_ok s own)|].
  rewrite (equal_step _ _ _ _ _ _ C (Li (bs "cp1252") ltac:(cbn; tauto))). destruct (str_eqb name (bs "cp1252")); [now apply (load_builtin_ok s own)|].
  apply follows_ret, gets_none, extends_refl.
Qed.

Lemma give_up_ok {B} (R R' : heap -> N -> Prop) (Q : B -> option ptr -> store_t -> Prop) text s :
  follows R R' Q (let% _ := complain text in quietly (Exit EXIT_FAILURE)) (c_give_up text s).
Proof. apply follows_exit. reflexivity. Qed.

(** ** Filters *)

Lemma statics_extend s s' own : extends s s' -> statics_in s static own -> statics_in s' static own.
Proof.
  intros E St x. destruct (St x) as (c & blocks & T & D). exists c, blocks. split; [|exact D]. apply (table_seen_same s); [|exact T].
  intros b I. apply (extends_at s s' b E). exact (seen_old _ _ _ _ _ _ T I).
Qed.

Lemma filter_table_ok s own p f next filename builtin table : statics_in s static own -> literals_in (s_heap s) literal review_literals -> familiar f ->
  content s p [Adr next; Num (code_of (f_cleaner f)); Adr filename; Adr builtin; Num (if f_remove_trailing f then 1 else 0); Num (Z.of_N (f_max_length f)); Adr table] ->
  string_in (s_heap s) filename (f_filename f) -> string_in (s_heap s) builtin (f_builtin f) ->
  follows (beyond s) never (gets s) (filter_load_table_says (e_datadir (m_env sys)) (table_at_says sys) f) (c_filter_load_table literal static denied_size sys p s).
Proof.
  intros St Li Fam C Fn Bn. unfold c_filter_load_table, filter_load_table_says.
  step (int_at_ok s p _ 1 _ C eq_refl : int_at p FT_cleaner s = _).
  assert (K : forall x, cstr_at (s_heap s) (literal x) x -> length x <= 16 -> default_table_name (f_cleaner f) = Some x ->
    follows (beyond s) never (gets s)
      (match f_builtin f with
       | Some b => match filter_load_builtin_by_filename b with Some t => done (Some t) | None => let% _ := complain (bs "detox: unable to locate builtin table " ++ in_quotes b) in quietly (Exit EXIT_FAILURE) end
       | None =>
         match f_filename f with
         | None =>
           let% t := filter_find_table_says (e_datadir (m_env sys)) (table_at_says sys) x in
           match t with
           | Some t => done (Some t)
           | None => match filter_load_builtin (f_cleaner f) with Some t => done (Some t) | None => let% _ := complain (bs "detox: unable to locate translation table or fall back") in quietly (Exit EXIT_FAILURE) end
           end
         | Some file =>
           let% t := table_at_says sys file in
           match t with Some t => done (Some t) | None => let% _ := complain (bs "detox: unable to parse file: " ++ in_quotes file) in quietly (Exit EXIT_FAILURE) end
         end
       end)
      ((let$ builtin := ptr_at p FT_builtin in
        match builtin with
        | Some builtin =>
          let$ table := c_filter_load_builtin_by_filename literal static builtin in
          match table with
          | Some _ => wret table
          | None => let$ b := bytes (c_read builtin) in c_give_up (bs "detox: unable to locate builtin table " ++ in_quotes b)
          end
        | None =>
          let$ filename := ptr_at p FT_filename in
          match filename with
          | None =>
            let$ table := c_filter_find_table denied_size sys (literal x) in
            match table with
            | Some _ => wret table
            | None =>
              let$ table := c_filter_load_builtin static p in
              match table with Some _ => wret table | None => c_give_up (bs "detox: unable to locate translation table or fall back") end
            end
          | Some check_filename =>
            let$ table := c_parse_table_file denied_size sys check_filename in
            match table with
            | Some _ => wret table
            | None => let$ path := bytes (c_read check_filename) in c_give_up (bs "detox: unable to parse file: " ++ in_quotes path)
            end
          end
        end) s)).
  { intros x Cx Lx Ed. step (ptr_at_ok s p _ 3 _ C eq_refl : ptr_at p FT_builtin s = _).
    destruct builtin as [builtin|], (f_builtin f) as [b|]; cbn in Bn; try easy.
    - assert (E : match filter_load_builtin_by_filename b with Some t => done (Some t) | None => let% _ := complain (bs "detox: unable to locate builtin table " ++ in_quotes b) in quietly (Exit EXIT_FAILURE) end =
                  let% r := done (filter_load_builtin_by_filename b) in
                  match r with Some t => done (Some t) | None => let% _ := complain (bs "detox: unable to locate builtin table " ++ in_quotes b) in quietly (Exit EXIT_FAILURE) end) by now rewrite tbind_done.
      rewrite E. apply (follows_bind _ _ (gets s)); [now apply (by_filename_ok s own)|].
      intros t q s1 G. pose proof G as (Ex & town & T & _). destruct q as [q|], t as [t|]; cbn in T; try easy; [now apply follows_ret|].
      rewrite (read_step s1 builtin b) by (apply (extends_cstr s); [exact Ex|apply Bn]). apply give_up_ok.
    - step (ptr_at_ok s p _ 2 _ C eq_refl : ptr_at p FT_filename s = _). destruct filename as [filename|], (f_filename f) as [file|]; cbn in Fn; try easy.
      + apply (follows_bind _ _ (gets s)); [apply table_file_ok; apply Fn|].
        intros t q s1 G. pose proof G as (Ex & town & T & _). destruct q as [q|], t as [t|]; cbn in T; try easy; [now apply follows_ret|].
        rewrite (read_step s1 filename file) by (apply (extends_cstr s); [exact Ex|apply Fn]). apply give_up_ok.
      + apply (follows_bind _ _ (gets s)); [now apply find_table_ok|].
        intros t q s1 G. pose proof G as (Ex & town & T & _). destruct q as [q|], t as [t|]; cbn in T; try easy; [now apply follows_ret|].
        assert (C1 := content_at s s1 p _ (extends_at _ _ _ Ex (content_live _ _ _ C)) C). assert (St1 := statics_extend _ _ _ Ex St).
        assert (E : match filter_load_builtin (f_cleaner f) with Some t => done (Some t) | None => let% _ := complain (bs "detox: unable to locate translation table or fall back") in quietly (Exit EXIT_FAILURE) end =
                    let% r := done (filter_load_builtin (f_cleaner f)) in
                    match r with Some t => done (Some t) | None => let% _ := complain (bs "detox: unable to locate translation table or fall back") in quietly (Exit EXIT_FAILURE) end) by now rewrite tbind_done.
        rewrite E. apply (follows_bind _ _ (gets s)).
        * unfold c_filter_load_builtin. step (int_at_ok s1 p _ 1 _ C1 eq_refl : int_at p FT_cleaner s1 = _).
          eapply follows_weaken; [|intros h n; exact (beyond_extends s s1 h n Ex)|intros h n X; exact X|intros r q s2; exact (gets_after s s1 r q s2 Ex)].
          destruct (f_cleaner f); try discriminate Ed; now apply (load_builtin_ok s1 own).
        * intros r q s2 G2. pose proof G2 as (_ & town2 & T2 & _). destruct q as [q|], r as [r|]; cbn in T2; try easy; [now apply follows_ret|]. apply give_up_ok. }
  destruct (f_cleaner f) eqn:Ec; cbn [default_table_name code_of cleaner_code] in *; try (exfalso; exact (Fam _ Ec)); try (apply follows_ret, gets_none, extends_refl);
    match goal with |- context[literal ?x] => apply (K x); [apply Li; cbn; tauto|apply Nat.leb_le; reflexivity|reflexivity] end.
Qed.

Lemma reviewed_same s s' ps : forall fs k own, (forall b, In b own -> same_at s s' b) -> reviewed_at s ps fs k own -> reviewed_at s' ps fs k own.
Proof.
  induction ps as [|p ps IH]; intros [|f fs] k own S; cbn [reviewed_at]; auto.
  intros (fn & bn & tb & town & rest & C & F & B & T & -> & R). exists fn, bn, tb, town, rest. splits; auto.
  - apply (content_at s); [|exact C]. apply S. now left.
  - apply (string_same s); [|exact F]. intros b I. apply S. right. apply in_app_iff. left. cbn in *. rewrite app_nil_r in *. apply in_app_iff. now left.
  - apply (string_same s); [|exact B]. intros b I. apply S. right. apply in_app_iff. left. cbn in *. rewrite app_nil_r in *. apply in_app_iff. now right.
  - apply (table_of_same s); [|exact T]. intros b I. apply S. right. rewrite !in_app_iff. auto.
  - apply IH; [|exact R]. intros b I. apply S. right. rewrite !in_app_iff. auto.
Qed.

(** ** The review *)

(** Other memory is as it was: in the blocks [own], no bytes have changed either. *)
Definition touches (own : list nat) (s s' : store_t) : Prop :=
  (exists more, s_heap s' = s_heap s ++ more) /\ forall b, b < length (s_heap s) -> ~ In b own -> s_words s' b = s_words s b.

Lemma touches_trans a s s1 s2 : touches a s s1 -> touches a s1 s2 -> touches a s s2.
Proof.
  intros ((m & E) & W) ((m' & E') & W'). split.
  - exists (m ++ m'). now rewrite E', E, app_assoc.
  - intros i L N. rewrite W' by (rewrite ?E, ?app_length; auto; lia). auto.
Qed.

Lemma touches_more a b s s' : (forall x, In x a -> In x b) -> touches a s s' -> touches b s s'.
Proof. intros I (M & W). split; [exact M|]. intros x L N. apply W; auto. Qed.

Lemma touches_extends a s s' : extends s s' -> touches a s s'.
Proof. intros (M & W). split; auto. Qed.

Lemma touches_at a s s' b : touches a s s' -> b < length (s_heap s) -> ~ In b a -> same_at s s' b.
Proof. intros ((m & E) & W) L N. split; [rewrite E; now apply nth_error_app1|auto]. Qed.

Lemma touches_cstr a s s' p x : touches a s s' -> cstr_at (s_heap s) p x -> cstr_at (s_heap s') p x.
Proof. intros ((m & E) & _) (cells & rest & N & X). exists cells, rest. split; [|exact X]. rewrite E. now apply nth_old. Qed.

Lemma touches_length a s s' : touches a s s' -> length (s_heap s) <= length (s_heap s').
Proof. intros ((m & E) & _). rewrite E, app_length. lia. Qed.

Lemma touches_beyond a s s' h n : touches a s s' -> beyond s' h n -> beyond s h n.
Proof. intros ((m & E) & _) (m' & ->). exists (m ++ m'). now rewrite E, app_assoc. Qed.

Lemma touches_string a s s' q x : touches a s s' -> string_in (s_heap s) q x -> string_in (s_heap s') q x.
Proof. intros T. destruct q as [q|], x as [x|]; cbn; auto. intros (O & C). split; [exact O|]. exact (touches_cstr _ _ _ _ _ T C). Qed.

Lemma statics_touched a s s' : touches a s s' -> statics_in s static a -> statics_in s' static a.
Proof.
  intros E St x. destruct (St x) as (c & blocks & T & D). exists c, blocks. split; [|exact D]. apply (table_seen_same s); [|exact T].
  intros b I. apply (touches_at a s s' b E); [exact (seen_old _ _ _ _ _ _ T I)|now apply D].
Qed.

Lemma statics_less a b s : (forall x, In x b -> In x a) -> statics_in s static a -> statics_in s static b.
Proof. intros I St x. destruct (St x) as (c & blocks & T & D). exists c, blocks. split; [exact T|]. intros y J K. exact (D y J (I y K)). Qed.

Lemma review_rounds ps : forall fs own s fuel, filters_at s ps fs None own -> NoDup own -> Forall familiar fs ->
  statics_in s static own -> literals_in (s_heap s) literal review_literals -> length ps < fuel ->
  follows (beyond s) never (fun fs' _ s' => reviews s ps own fs' s')
    (review_filters_says (e_datadir (m_env sys)) (table_at_says sys) fs)
    (wrounds fuel (fun filter =>
      match filter with
      | None => wret (inr tt)
      | Some f =>
        let$ table := c_filter_load_table literal static denied_size sys f in
        let$ _ := (match table with Some t => assign f FT_table (Ptr t) | None => wret tt end) in
        let$ next := ptr_at f FT_next in
        wret (inl next)
      end) (first ps None) s).
Proof.
  induction ps as [|p ps IH]; intros [|f fs] own s fuel; cbn [filters_at first length]; try tauto; (destruct fuel as [|fuel]; [lia|]); cbn [wrounds review_filters_says].
  - intros -> _ _ _ _ _. rewrite wbind_ret. apply follows_ret. split; [exists []; now rewrite app_nil_r|]. split; [auto|]. exists []. cbn. splits; auto; constructor.
  - intros (fn & bn & rest & C & Fn & Bn & Ft & Eo & A) ND Fam St Li Lf. rewrite wbind_assoc. apply Forall_cons_iff in Fam as (Ff & Fam).
    apply (follows_bind _ _ (gets s)); [now apply (filter_table_ok s own _ _ _ _ _ _ St Li Ff C)|].
    intros t q s1 (Ex & town & T & On). rewrite wbind_assoc.
    assert (C1 := content_at s s1 p _ (extends_at _ _ _ Ex (content_live _ _ _ C)) C).
    assert (Lp := content_live _ _ _ C).
    assert (Old : forall b, In b own -> b < length (s_heap s)).
    { intros b I. apply there_old. subst own. destruct I as [<-|I]; [exact (content_there _ _ _ C)|]. apply in_app_iff in I as [I|I]; [|exact (filters_there _ _ _ _ _ A _ I)].
      cbn in I. rewrite app_nil_r in I. apply in_app_iff in I as [I|I]; [apply (string_there _ _ _ b Fn)|apply (string_there _ _ _ b Bn)]; cbn; now rewrite app_nil_r. }
    set (s2 := match q with Some t => assigned s1 p 6 (Ptr t) | None => s1 end).
    assert (M : (match q with Some t => assign p FT_table (Ptr t) | None => wret tt end) s1 = done (tt, s2)).
    { destruct q as [q|]; [|reflexivity]. exact (assign_ok s1 p _ 6 (Ptr q) C1 ltac:(cbn; lia)). }
    step M. clear M.
    assert (C2 : content s2 p [Adr (first ps None); Num (code_of (f_cleaner f)); Adr fn; Adr bn; Num (if f_remove_trailing f then 1 else 0); Num (Z.of_N (f_max_length f)); Adr q]).
    { unfold s2. destruct q as [q|]; [|exact C1]. exact (assigned_content s1 p _ 6 (Ptr q) (Adr (Some q)) C1 ltac:(right; eexists; eauto)). }
    assert (T12 : touches [p_block p] s1 s2).
    { unfold s2. destruct q as [q|]; [|apply touches_extends, extends_refl]. split; [exists []; now rewrite app_nil_r|]. intros b _ Nb. apply update_other. intros ->. apply Nb. now left. }
    assert (T2 : touches [p_block p] s s2) by (apply (touches_trans _ s s1); [now apply touches_extends|exact T12]).
    rewrite wbind_assoc. step (ptr_at_ok s2 p _ 0 _ C2 eq_refl : ptr_at p FT_next s2 = _). rewrite wbind_ret.
    assert (Pown : forall b, In b [p_block p] -> In b own) by (intros b [<-|[]]; subst own; now left).
    assert (Prest : forall b, In b rest -> In b own) by (intros b I; subst own; right; apply in_app_iff; now right).
    rewrite Eo in ND. apply NoDup_cons_iff in ND as (Np & ND). assert (NDr := NoDup_r _ _ ND).
    assert (A2 : filters_at s2 ps fs None rest).
    { apply (filters_same s); [|exact A]. intros b I. apply (touches_at _ _ _ _ T2); [auto|]. intros [<-|[]]. apply Np. apply in_app_iff. now right. }
    eapply follows_map.
    + eapply follows_weaken with (R' := never) (Q := fun fs' _ s' => reviews s2 ps rest fs' s'); [apply (IH fs rest s2 fuel A2 NDr Fam)| |intros h n X; exact X|intros fs' a s' X; exact X]; [..|lia|].
      * apply (statics_less own); [exact Prest|]. apply (statics_touched own s); [exact (touches_more _ _ _ _ Pown T2)|exact St].
      * intros x I. apply (touches_cstr _ _ _ _ _ T2), Li, I.
      * intros h n. apply (touches_beyond _ _ _ _ _ T2).
    + intros fs' [] s' (M3 & W3 & own' & R3 & ND3 & On3). assert (T3 : touches rest s2 s') by now split.
      assert (L2 := touches_length _ _ _ T2). assert (L12 := extends_length _ _ Ex).
      assert (T03 : touches own s s') by (apply (touches_trans _ s s2); [exact (touches_more _ _ _ _ Pown T2)|exact (touches_more _ _ _ _ Prest T3)]).
      split; [apply T03|]. split; [apply T03|].
      assert (Tn : forall b, In b town -> b < length (s_heap s1)).
      { intros b I. destruct q as [q|], t as [t|]; cbn in T; [|easy..|subst town; destruct I]. destruct T as (c & T & _). exact (own_old _ _ _ _ _ _ T I). }
      assert (L1 : length (s_heap s2) = length (s_heap s1)) by (unfold s2; now destruct q).
      assert (Np3 : ~ In (p_block p) own').
      { intros I. destruct (On3 _ I) as [J|J]; [|lia]. apply Np. apply in_app_iff. now right. }
      assert (NDt : NoDup town).
      { destruct q as [q|], t as [t|]; cbn in T; [|easy..|subst town; constructor]. destruct T as (c & (? & ? & ? & _ & _ & _ & _ & _ & X & _) & _). exact X. }
      exists (p_block p :: block_list [fn; bn] ++ town ++ own'). splits.
      * exists fn, bn, q, town, own'.
        assert (Np' : ~ In (p_block p) rest) by (intros J; apply Np, in_app_iff; now right).
        splits; auto.
        -- assert (C3 := content_at s2 s' p _ (touches_at _ _ _ _ T3 (Nat.lt_le_trans _ _ _ Lp L2) Np') C2).
           destruct t as [t|]; exact C3.
        -- destruct t as [t|]; exact (touches_string _ _ _ _ _ T03 Fn).
        -- destruct t as [t|]; exact (touches_string _ _ _ _ _ T03 Bn).
        -- assert (Et : f_table (with_table f t) = t) by (destruct t as [t|]; [reflexivity|exact Ft]). rewrite Et.
           apply (table_of_same s1); [|exact T]. intros b I. pose proof (Tn b I). pose proof (On b I).
           destruct (touches_at _ _ _ b T12 ltac:(assumption)) as (X1 & X2); [intros [<-|[]]; lia|].
           destruct (touches_at _ _ _ b T3 ltac:(lia)) as (Y1 & Y2); [intros J; apply Prest, Old in J; lia|]. split; congruence.
      * constructor.
        -- intros J. apply in_app_iff in J as [J|J]; [apply Np, in_app_iff; now left|]. apply in_app_iff in J as [J|J]; [apply On in J; lia|easy].
        -- apply NoDup_apart_app; [exact (NoDup_l _ _ ND)|apply NoDup_apart_app; auto|].
           ++ intros b J K. destruct (On3 _ K) as [K'|K']; [apply Prest, Old in K'; apply On in J; lia|apply Tn in J; lia].
           ++ intros b J K. assert (Jo : In b own) by (rewrite Eo; right; apply in_app_iff; now left). apply in_app_iff in K as [K|K]; [apply On in K; apply Old in Jo; lia|].
              destruct (On3 _ K) as [K'|K']; [exact (NoDup_apart _ _ _ ND J K')|apply Old in Jo; lia].
      * intros b [<-|J]; [left; apply Pown; now left|]. apply in_app_iff in J as [J|J]; [left; rewrite Eo; right; apply in_app_iff; now left|].
        apply in_app_iff in J as [J|J]; [right; now apply On|]. destruct (On3 _ J) as [K'|K']; [left; auto|right; lia].
Qed.

Lemma filters_room s ps fs own : filters_at s ps fs None own -> NoDup own -> length ps <= heap_size (s_heap s).
Proof.
  intros A ND. rewrite <- (map_length p_block ps). apply nonempty_room.
  - revert fs own A ND. induction ps as [|p ps IH]; intros [|f fs] own; cbn [filters_at]; try tauto; [constructor|].
    intros (fn & bn & rest & C & Fn & Bn & Ft & -> & A) ND. cbn [map]. apply NoDup_cons_iff in ND as (Np & ND). constructor; [|exact (IH _ _ A (NoDup_r _ _ ND))].
    intros I. apply Np. apply in_app_iff. right. clear - A I. revert fs rest A. induction ps as [|x ps IH]; intros [|f fs] rest; cbn [filters_at]; try tauto; [destruct I|].
    intros (fn & bn & rest' & C & Fn & Bn & Ft & -> & A). destruct I as [I|I]; [now left|]. right. apply in_app_iff. right. exact (IH I _ _ A).
  - intros b I. apply in_map_iff in I as (p & <- & I). revert fs own A ND I. induction ps as [|x ps IH]; intros [|f fs] own; cbn [filters_at In]; try tauto.
    intros (fn & bn & rest & C & Fn & Bn & Ft & -> & A) ND [->|I].
    + destruct C as (_ & _ & [|c cells] & E & L); [cbn in L; lia|]. eauto.
    + apply NoDup_cons_iff in ND as (_ & ND). exact (IH _ _ A (NoDup_r _ _ ND) I).
Qed.

Theorem review_in_memory s p next name source ps fs own : content s p [next; name; Adr (first ps None); source] ->
  filters_at s ps fs None own -> NoDup own -> Forall familiar fs -> statics_in s static own -> literals_in (s_heap s) literal review_literals ->
  follows (beyond s) never (fun fs' _ s' => reviews s ps own fs' s') (review_filters_says (e_datadir (m_env sys)) (table_at_says sys) fs) (c_sequence_review literal static denied_size sys p s).
Proof.
  intros C A ND Fam St Li. unfold c_sequence_review. step (ptr_at_ok s p _ 2 _ C eq_refl : ptr_at p SQ_filters s = _).
  unfold wwhile. apply review_rounds; auto. pose proof (filters_room _ _ _ _ A ND). lia.
Qed.

End review.
