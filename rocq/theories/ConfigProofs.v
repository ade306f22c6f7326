(** * The parser of configuration files and its grammar *)

From Verif Require Import Base BaseFacts Stdio ParseTableSpec ParseTableProofs Filter Spoof ConfigLex ConfigParse ConfigSpec ConfigLexProofs
  ConfigLayoutProofs.

Local Open Scope nat_scope.

(** ** The automaton on a list of tokens *)

Fixpoint play (filename : str) (p : pstate) (s : cf_state) (ts : list token) : option (pstate * cf_state) :=
  match ts with
  | [] => Some (p, s)
  | t :: r => match parse_step filename p s t with Some (p', s') => play filename p' s' r | None => None end
  end.

Lemma play_app filename ts ts' : forall p s,
  play filename p s (ts ++ ts') =
  match play filename p s ts with Some (p', s') => play filename p' s' ts' | None => None end.
Proof.
  induction ts as [|t ts IH]; intros p s; [easy|]. cbn [app play].
  destruct (parse_step filename p s t) as [[p' s']|]; [apply IH|reflexivity].
Qed.

Lemma yyparse_scans filename input ts printed : scans input ts printed -> forall fuel p s, length input <= fuel ->
  match play filename p s ts with
  | Some (P_top, s') => yyparse fuel filename p s input = (printed, Ok s')
  | _ => snd (yyparse fuel filename p s input) = Exit EXIT_FAILURE
  end.
Proof.
  induction 1 as [|input sx rest r pr ts more M E S IH|input sx rest r pr t ts more M E S IH|c rest ts more X S IH];
    intros fuel p s L.
  - cbn [play]. destruct p, fuel; reflexivity.
  - pose proof (lex_round_munch _ _ _ _ _ _ M E) as R. destruct M as (EI & NE & _).
    destruct input as [|c input]; [destruct sx; [elim (NE eq_refl)|discriminate EI]|].
    destruct fuel as [|fuel]; [simpl in L; lia|]. cbn [yyparse]. rewrite R.
    assert (LR : length rest <= fuel).
    { apply (f_equal (@length byte)) in EI. rewrite app_length in EI. simpl in EI, L.
      destruct sx; [elim (NE eq_refl)|simpl in EI; unfold byte in *; lia]. }
    specialize (IH fuel p s LR). destruct (play filename p s ts) as [[p' s']|]; [destruct p'|]; try (exact IH).
    rewrite IH. reflexivity.
  - pose proof (lex_round_munch _ _ _ _ _ _ M E) as R. destruct M as (EI & NE & _).
    destruct input as [|c input]; [destruct sx; [elim (NE eq_refl)|discriminate EI]|].
    destruct fuel as [|fuel]; [simpl in L; lia|]. cbn [yyparse play]. rewrite R.
    assert (LR : length rest <= fuel).
    { apply (f_equal (@length byte)) in EI. rewrite app_length in EI. simpl in EI, L.
      destruct sx; [elim (NE eq_refl)|simpl in EI; unfold byte in *; lia]. }
    destruct (parse_step filename p s t) as [[p1 s1]|]; [|reflexivity].
    specialize (IH fuel p1 s1 LR). destruct (play filename p1 s1 ts) as [[p' s']|]; [destruct p'|]; try (exact IH).
    rewrite IH. reflexivity.
  - destruct fuel as [|fuel]; [simpl in L; lia|]. cbn [yyparse]. rewrite (lex_round_stray _ _ X).
    assert (LR : length rest <= fuel) by (simpl in L; lia).
    specialize (IH fuel p s LR). destruct (play filename p s ts) as [[p' s']|]; [destruct p'|]; try (exact IH).
    rewrite IH. reflexivity.
Qed.

(** ** From the grammar to the automaton *)

Lemma play_string t n : a_string [t] n -> string_token t = Some n.
Proof. intros H. inversion H; reflexivity. Qed.

Lemma a_string_one ts n : a_string ts n -> exists t, ts = [t] /\ string_token t = Some n.
Proof. intros H. inversion H; subst; eexists; split; reflexivity. Qed.

Lemma string_token_spec t n : string_token t = Some n -> a_string [t] n.
Proof. destruct t; try discriminate; intros H; injection H as ->; constructor. Qed.

Definition key_of (c : cleaner) : keyword :=
  match c with
  | F_iso8859_1 => K_iso8859_1 | F_utf_8 => K_utf_8 | F_safe => K_safe | F_uncgi => K_uncgi
  | F_lower => K_lower | F_wipeup => K_wipeup | F_max_length => K_max_length | F_unknown _ => K_builtin
  end.

(** The methods with options. *)
Definition optional (c : cleaner) : bool :=
  match c with F_iso8859_1 | F_utf_8 | F_safe | F_wipeup | F_max_length => true | _ => false end.

Lemma play_table c ts f filename b s : takes_table c = true -> table_method (key_of c) c ts f ->
  play filename (P_methods b) s (ts ++ [T_eol]) = Some (P_methods true, cf_append_filter f s).
Proof.
  intros T H. destruct H as [| |ts n A|ts n A].
  - destruct c, b; try discriminate; reflexivity.
  - destruct c, b; try discriminate; reflexivity.
  - apply a_string_one in A. destruct A as (t & -> & A). cbn [app].
    destruct c, b; try discriminate; cbn [play parse_step method_state key_of takes_table]; rewrite A; reflexivity.
  - apply a_string_one in A. destruct A as (t & -> & A). cbn [app].
    destruct c, b; try discriminate; cbn [play parse_step method_state key_of takes_table]; rewrite A; reflexivity.
Qed.

Lemma play_method ts f filename b s : method ts f ->
  play filename (P_methods b) s ts = Some (P_methods true, cf_append_filter f s).
Proof.
  destruct 1; try (destruct b; reflexivity).
  - now apply (play_table F_iso8859_1).
  - now apply (play_table F_utf_8).
  - now apply (play_table F_safe).
Qed.

Definition with_filters (fs : list filter_t) (s : cf_state) : cf_state :=
  mkCf (c_sequences s) (c_filters s ++ fs) (c_name s) (c_ignore s).

Lemma play_methods ts fs filename b s : methods ts fs ->
  play filename (P_methods b) s ts = Some (P_methods true, with_filters fs s).
Proof.
  intros H. revert b s. induction H as [ts f M|ts fs ts' f H IH M]; intros b s.
  - rewrite (play_method _ _ _ _ _ M). reflexivity.
  - rewrite play_app, IH, (play_method _ _ _ _ _ M). unfold cf_append_filter, with_filters. simpl.
    now rewrite <- app_assoc.
Qed.

Definition with_ignores (ns : list str) (s : cf_state) : cf_state :=
  mkCf (c_sequences s) (c_filters s) (c_name s) (c_ignore s ++ ns).

Lemma play_ignores ts ns filename b s : ignores ts ns ->
  play filename (P_ignores b) s ts = Some (P_ignores true, with_ignores ns s).
Proof.
  intros H. revert b s. induction H as [ts n A|ts ns ts' n H IH A]; intros b s.
  - apply a_string_one in A. destruct A as (t & -> & A). cbn [app play parse_step].
    destruct b; cbn [play parse_step]; rewrite A; reflexivity.
  - rewrite play_app, IH. apply a_string_one in A. destruct A as (t & -> & A). cbn [app play parse_step].
    rewrite A. cbn [parse_step]. unfold cf_append_ignore_entry, with_ignores. simpl. now rewrite <- app_assoc.
Qed.

(** What a definition does to the sequences and the list of files to ignore. *)
Definition define (filename : str) (s : cf_state) (d : definition) : cf_state :=
  match d with
  | Sequence n fs => mkCf (put_sequence n fs filename (c_sequences s)) [] (Some n) (c_ignore s)
  | Ignore ns => with_ignores ns s
  end.

Lemma play_rule ts d filename s : a_rule ts d -> c_filters s = [] ->
  play filename P_top s ts = Some (P_top, define filename s d).
Proof.
  intros H F. destruct H as [tn n ts fs A M|ts ns I].
  - apply a_string_one in A. destruct A as (t & -> & A). cbn [app play parse_step]. rewrite A.
    cbn [play parse_step]. rewrite play_app, (play_methods _ _ _ _ _ M). cbn [play parse_step].
    unfold cf_append_sequence_list, define, with_filters. simpl. now rewrite F.
  - cbn [app play parse_step]. rewrite play_app, (play_ignores _ _ _ _ _ I). reflexivity.
Qed.

Lemma define_filters filename s d : c_filters s = [] -> c_filters (define filename s d) = [].
Proof. intros H. destruct d; [reflexivity|exact H]. Qed.

Lemma play_config ts ds filename s : config_text ts ds -> c_filters s = [] ->
  play filename P_top s ts = Some (P_top, fold_left (define filename) ds s) /\
  c_filters (fold_left (define filename) ds s) = [].
Proof.
  intros H F. induction H as [|ts ds ts' d H [IH IF] R]; [auto|].
  rewrite play_app, IH, fold_left_app, (play_rule _ _ _ _ R IF). split; [reflexivity|now apply define_filters].
Qed.

(** ** From the automaton to the grammar *)

(** The rule being read: the tokens so far, from the state [base] at its beginning. *)
Definition in_body (base : cf_state) (pend : list token) (some : bool) (s : cf_state) : Prop :=
  exists tn n ts fs, pend = T_key K_sequence :: tn ++ T_open :: ts /\ a_string tn n /\
    s = mkCf (c_sequences base) fs (Some n) (c_ignore base) /\
    if some then methods ts fs else ts = [] /\ fs = [].

Definition in_method (base : cf_state) (pend m : list token) (s : cf_state) : Prop :=
  exists pre some, pend = pre ++ m /\ in_body base pre some s.

Definition in_ignores (base : cf_state) (pend : list token) (some : bool) (s : cf_state) : Prop :=
  exists ts ns, pend = [T_key K_ignore; T_open] ++ ts /\ s = with_ignores ns base /\
    if some then ignores ts ns else ts = [] /\ ns = [].

Definition reading (base : cf_state) (p : pstate) (pend : list token) (s : cf_state) : Prop :=
  match p with
  | P_top => pend = [] /\ s = base
  | P_sequence => pend = [T_key K_sequence] /\ s = base
  | P_named n => exists tn, pend = T_key K_sequence :: tn /\ a_string tn n /\ s = base
  | P_methods some => in_body base pend some s
  | P_simple c => (c = F_uncgi \/ c = F_lower) /\ in_method base pend [T_key (key_of c)] s
  | P_method c => optional c = true /\ in_method base pend [T_key (key_of c)] s
  | P_options c => optional c = true /\ in_method base pend [T_key (key_of c); T_open] s
  | P_table c b => takes_table c = true /\
      in_method base pend [T_key (key_of c); T_open; T_key (if b then K_builtin else K_filename)] s
  | P_length => in_method base pend [T_key K_max_length; T_open; T_key K_length] s
  | P_option f => exists m, in_method base pend m s /\ method (m ++ [T_eol; T_close; T_eol]) f
  | P_option_eol f => exists m, in_method base pend m s /\ method (m ++ [T_close; T_eol]) f
  | P_method_end => exists m f s0, in_method base pend m s0 /\ method (m ++ [T_eol]) f /\ s = cf_append_filter f s0
  | P_sequence_end => exists pre, pend = pre ++ [T_close] /\ in_body base pre true s
  | P_ignore => pend = [T_key K_ignore] /\ s = base
  | P_ignores some => in_ignores base pend some s
  | P_ignore_file => exists pre some, pend = pre ++ [T_key K_filename] /\ in_ignores base pre some s
  | P_ignored n => exists pre some tn, pend = pre ++ T_key K_filename :: tn /\ a_string tn n /\ in_ignores base pre some s
  | P_ignore_end => exists pre, pend = pre ++ [T_close] /\ in_ignores base pre true s
  end.

(** The end of a method. *)
Lemma body_more base pre some s m f : in_body base pre some s -> method m f ->
  in_body base (pre ++ m) true (cf_append_filter f s).
Proof.
  intros (tn & n & ts & fs & -> & A & -> & B) M. exists tn, n, (ts ++ m), (fs ++ [f]). splits; auto.
  - cbn [app]. rewrite <- app_assoc. reflexivity.
  - destruct some; [now constructor|]. destruct B as [-> ->]. now constructor.
Qed.

Lemma method_done base pend m s t f : in_method base pend m s -> method (m ++ [t]) f ->
  in_body base (pend ++ [t]) true (cf_append_filter f s).
Proof.
  intros (pre & some & -> & B) M. rewrite <- app_assoc. eapply body_more; eauto.
Qed.

Lemma in_method_more base pend m s t : in_method base pend m s -> in_method base (pend ++ [t]) (m ++ [t]) s.
Proof. intros (pre & some & -> & B). exists pre, some. split; [now rewrite app_assoc|exact B]. Qed.

Lemma ignores_more base pre some s tn n : in_ignores base pre some s -> a_string tn n ->
  in_ignores base (pre ++ T_key K_filename :: tn ++ [T_eol]) true (cf_append_ignore_entry n s).
Proof.
  intros (ts & ns & -> & -> & B) A. exists (ts ++ T_key K_filename :: tn ++ [T_eol]), (ns ++ [n]). splits.
  - reflexivity.
  - unfold cf_append_ignore_entry, with_ignores. simpl. now rewrite app_assoc.
  - destruct some; [now constructor|]. destruct B as [-> ->]. now constructor.
Qed.

Lemma key_method k p : method_state k = Some p ->
  (exists c, k = key_of c /\ p = P_simple c /\ (c = F_uncgi \/ c = F_lower)) \/
  (exists c, k = key_of c /\ p = P_method c /\ optional c = true).
Proof.
  destruct k; try discriminate; intros H; injection H as <-.
  - right. now exists F_iso8859_1.
  - left. exists F_lower. auto.
  - right. now exists F_max_length.
  - right. now exists F_safe.
  - left. exists F_uncgi. auto.
  - right. now exists F_utf_8.
  - right. now exists F_wipeup.
Qed.

Lemma step_reading filename base p pend s t p' s' : c_filters base = [] ->
  reading base p pend s -> parse_step filename p s t = Some (p', s') ->
  reading base p' (pend ++ [t]) s' \/
  (p' = P_top /\ exists d, a_rule (pend ++ [t]) d /\ s' = define filename base d).
Proof.
  intros F R H. destruct p; cbn [reading] in R.
  - (* P_top *) destruct R as [-> ->]. destruct t as [[]| | | | | |]; try discriminate H; injection H as <- <-; left; now split.
  - (* P_sequence *) destruct R as [-> ->]. cbn [parse_step] in H. destruct (string_token t) as [n|] eqn:S; [|discriminate].
    injection H as <- <-. left. exists [t]. splits; auto. now apply string_token_spec.
  - (* P_named *) destruct R as (tn & -> & A & ->). destruct t; try discriminate H. injection H as <- <-. left.
    exists tn, name, [], []. splits; auto. rewrite F. reflexivity.
  - (* P_methods *) destruct t as [k| | | | | |]; try (destruct some; discriminate H).
    + cbn [parse_step] in H.
      assert (X : exists p, method_state k = Some p /\ p' = p /\ s' = s).
      { destruct some, (method_state k); try discriminate H; injection H as <- <-; eauto. }
      destruct X as (p & K & -> & ->).
      destruct (key_method _ _ K) as [(c & -> & -> & C)|(c & -> & -> & C)]; left.
      * split; [easy|]. exists pend, some. auto.
      * split; [exact C|]. exists pend, some. auto.
    + destruct some; [|discriminate H]. injection H as <- <-. left. exists pend. auto.
  - (* P_simple *) destruct R as [C R]. destruct t; try discriminate H. injection H as <- <-. left.
    apply (method_done _ _ _ _ _ _ R). destruct C; subst c; constructor.
  - (* P_method *) destruct R as (C & R). destruct t; try discriminate H; injection H as <- <-; left.
    + split; [exact C|]. apply (in_method_more _ _ _ _ _ R).
    + apply (method_done _ _ _ _ _ _ R). destruct c; try discriminate C; cbn [key_of app].
      * apply (me_iso [_]). constructor.
      * apply me_length.
      * apply (me_safe [_]). constructor.
      * apply (me_utf [_]). constructor.
      * apply me_wipeup.
  - (* P_options *) destruct R as (C & R). destruct t as [k| | | | | |]; try (destruct c; discriminate H).
    + destruct k; try (destruct c; discriminate H).
      * assert (X : takes_table c = true /\ p' = P_table c true /\ s' = s).
        { destruct c; cbn in H; try discriminate; injection H as <- <-; auto. }
        destruct X as (T & -> & ->). left. split; [easy|]. apply (in_method_more _ _ _ _ _ R).
      * assert (X : takes_table c = true /\ p' = P_table c false /\ s' = s).
        { destruct c; cbn in H; try discriminate; injection H as <- <-; auto. }
        destruct X as (T & -> & ->). left. split; [easy|]. apply (in_method_more _ _ _ _ _ R).
      * destruct c; try discriminate H. injection H as <- <-. left. apply (in_method_more _ _ _ _ _ R).
      * destruct c; try discriminate H. injection H as <- <-. left.
        exists [T_key K_wipeup; T_open; T_key K_remove_trailing]. split; [apply (in_method_more _ _ _ _ _ R)|constructor].
    + assert (X : p' = P_method_end /\ s' = cf_append_filter (plain c) s).
      { destruct c; try discriminate C; injection H as <- <-; auto. }
      destruct X as [-> ->]. left. exists [T_key (key_of c); T_open; T_close], (plain c), s. splits; auto.
      * apply (in_method_more _ _ _ _ _ R).
      * destruct c; try discriminate C; cbn [key_of app].
        -- apply (me_iso [_; _; _]). constructor.
        -- apply me_length_empty.
        -- apply (me_safe [_; _; _]). constructor.
        -- apply (me_utf [_; _; _]). constructor.
        -- apply me_wipeup_empty.
  - (* P_table *) destruct R as [T R]. cbn [parse_step] in H. destruct (string_token t) as [n|] eqn:S; [|discriminate].
    apply string_token_spec in S. injection H as <- <-. left.
    exists ([T_key (key_of c); T_open; T_key (if builtin then K_builtin else K_filename)] ++ [t]).
    split; [apply (in_method_more _ _ _ _ _ R)|].
    assert (M : table_method (key_of c) c
                  ([T_key (key_of c); T_open; T_key (if builtin then K_builtin else K_filename)] ++ [t] ++ [T_eol; T_close])
                  (if builtin then make_filter c (Some n) None 0 false else make_filter c None (Some n) 0 false)).
    { destruct builtin; [apply (t_builtin _ _ _ _ S)|apply (t_file _ _ _ _ S)]. }
    destruct c; try discriminate T.
    + apply (me_iso _ _ M).
    + apply (me_safe _ _ M).
    + apply (me_utf _ _ M).
  - (* P_length *) destruct t; try discriminate H. injection H as <- <-. left.
    exists [T_key K_max_length; T_open; T_key K_length; T_number n]. split; [apply (in_method_more _ _ _ _ _ R)|apply me_length_value].
  - (* P_option *) destruct R as (m & R & M). destruct t; try discriminate H. injection H as <- <-. left.
    exists (m ++ [T_eol]). split; [apply (in_method_more _ _ _ _ _ R)|]. now rewrite <- app_assoc.
  - (* P_option_eol *) destruct R as (m & R & M). destruct t; try discriminate H. injection H as <- <-. left.
    exists (m ++ [T_close]), f, s. splits; [apply (in_method_more _ _ _ _ _ R)| |easy]. now rewrite <- app_assoc.
  - (* P_method_end *) destruct R as (m & f & s0 & R & M & ->). destruct t; try discriminate H. injection H as <- <-. left.
    apply (method_done _ _ _ _ _ _ R M).
  - (* P_sequence_end *) destruct R as (pre & -> & (tn & n & ts & fs & -> & A & -> & B)).
    destruct t; try discriminate H. injection H as <- <-. right. split; [easy|]. exists (Sequence n fs). split; [|reflexivity].
    rewrite <- app_assoc. cbn [app]. rewrite <- app_assoc. cbn [app]. now constructor.
  - (* P_ignore *) destruct R as [-> ->]. destruct t; try discriminate H. injection H as <- <-. left.
    exists [], []. splits; auto. unfold with_ignores. rewrite app_nil_r. now destruct base.
  - (* P_ignores *) destruct t as [k| | | | | |]; try (destruct some; discriminate H).
    + destruct k; try (destruct some; discriminate H).
      assert (X : p' = P_ignore_file /\ s' = s) by (destruct some; injection H as <- <-; auto).
      destruct X as [-> ->]. left. exists pend, some. auto.
    + destruct some; [|discriminate H]. injection H as <- <-. left. exists pend. auto.
  - (* P_ignore_file *) destruct R as (pre & some & -> & R). cbn [parse_step] in H.
    destruct (string_token t) as [n|] eqn:S; [|discriminate]. apply string_token_spec in S. injection H as <- <-. left.
    exists pre, some, [t]. splits; auto. now rewrite <- app_assoc.
  - (* P_ignored *) destruct R as (pre & some & tn & -> & A & R). destruct t; try discriminate H. injection H as <- <-. left.
    cbn [reading]. rewrite <- app_assoc. cbn [app]. eapply ignores_more; eauto.
  - (* P_ignore_end *) destruct R as (pre & -> & (ts & ns & -> & -> & B)). destruct t; try discriminate H.
    injection H as <- <-. right. split; [easy|]. exists (Ignore ns). split; [|reflexivity].
    rewrite <- !app_assoc. now constructor.
Qed.

Lemma play_reading filename ts : forall base p pend s s', c_filters base = [] ->
  reading base p pend s -> play filename p s ts = Some (P_top, s') ->
  exists ds, config_text (pend ++ ts) ds /\ s' = fold_left (define filename) ds base.
Proof.
  induction ts as [|t ts IH]; intros base p pend s s' F R H.
  - injection H as -> ->. destruct R as [-> ->]. exists []. split; [constructor|reflexivity].
  - cbn [play] in H. destruct (parse_step filename p s t) as [[p1 s1]|] eqn:P; [|discriminate].
    destruct (step_reading _ _ _ _ _ _ _ _ F R P) as [R1|(-> & d & D & ->)].
    + destruct (IH _ _ _ _ _ F R1 H) as (ds & C & E). exists ds. split; [|exact E]. now rewrite <- app_assoc in C.
    + destruct (IH (define filename base d) P_top [] (define filename base d) s') as (ds & C & E); auto.
      { now apply define_filters. }
      { now split. }
      exists (d :: ds). split; [|exact E]. cbn [app] in C.
      change (t :: ts) with ([t] ++ ts). rewrite app_assoc. clear -D C.
      change (d :: ds) with ([d] ++ ds). induction C as [|ts1 ds1 ts2 d2 C IH R].
      * rewrite !app_nil_r. apply (c_more [] [] _ d); [constructor|exact D].
      * rewrite !app_assoc. now constructor.
Qed.

Lemma play_grammar filename ts s : c_filters s = [] ->
  (forall ds, config_text ts ds -> play filename P_top s ts = Some (P_top, fold_left (define filename) ds s)) /\
  (forall s', play filename P_top s ts = Some (P_top, s') ->
     exists ds, config_text ts ds /\ s' = fold_left (define filename) ds s).
Proof.
  intros F. split.
  - intros ds C. now apply play_config.
  - intros s' H. apply (play_reading filename ts s P_top [] s s' F); [now split|exact H].
Qed.

(** ** The definitions in force *)

Lemma first_names_snoc l n : first_names (l ++ [n]) = if in_dec str_dec n l then first_names l else first_names l ++ [n].
Proof.
  unfold first_names. rewrite rev_app_distr. cbn [rev app nodup].
  destruct (in_dec str_dec n (rev l)) as [I|I], (in_dec str_dec n l) as [J|J]; try reflexivity.
  - elim J. now apply in_rev.
  - elim I. now apply in_rev in J.
Qed.

Lemma first_names_in l n : In n (first_names l) <-> In n l.
Proof. unfold first_names. rewrite <- in_rev, nodup_In, <- in_rev. reflexivity. Qed.

Lemma first_names_nodup l : NoDup (first_names l).
Proof. unfold first_names. apply NoDup_rev, NoDup_nodup. Qed.

Lemma names_app a b : names (a ++ b) = names a ++ names b.
Proof. unfold names. apply flat_map_app. Qed.

Lemma ignored_app a b : ignored (a ++ b) = ignored a ++ ignored b.
Proof. unfold ignored. apply flat_map_app. Qed.

Lemma last_snoc n ds x : last_definition n (ds ++ [x]) =
  match last_definition n [x] with Some r => Some r | None => last_definition n ds end.
Proof.
  induction ds as [|[src d] ds IH].
  - cbn [app]. destruct (last_definition n [x]); reflexivity.
  - cbn [app last_definition] in *. rewrite IH. destruct x as [src' d']. cbn [last_definition].
    destruct d'; [destruct (str_eqb name n)|]; reflexivity.
Qed.

Lemma str_eqb_iff a b : str_eqb a b = true <-> a = b.
Proof.
  revert b. induction a as [|x a IH]; intros [|y b]; simpl; try (split; [easy|discriminate]); try easy.
  rewrite andb_true_iff, beq_eq, IH. split; [intros [-> ->]; easy|intros H; injection H as -> ->; easy].
Qed.

Lemma put_names n fs src l :
  map s_name (put_sequence n fs src l) = if in_dec str_dec n (map s_name l) then map s_name l else map s_name l ++ [n].
Proof.
  induction l as [|s l IH]; [reflexivity|]. cbn [put_sequence map].
  destruct (str_eqb (s_name s) n) eqn:E.
  - apply str_eqb_iff in E. cbn [map]. destruct (in_dec str_dec n (s_name s :: map s_name l)) as [I|I]; [reflexivity|].
    elim I. simpl. auto.
  - cbn [map]. rewrite IH. destruct (in_dec str_dec n (map s_name l)) as [I|I];
      destruct (in_dec str_dec n (s_name s :: map s_name l)) as [J|J]; try reflexivity.
    + elim J. simpl. auto.
    + destruct J as [J|J]; [|easy]. apply str_eqb_iff in J. congruence.
Qed.

Lemma put_elements n fs src l s : NoDup (map s_name l) -> In s (put_sequence n fs src l) ->
  (s_name s = n /\ s_filters s = fs /\ s_source s = Some src) \/ (s_name s <> n /\ In s l).
Proof.
  induction l as [|x l IH]; intros N I; cbn [put_sequence] in I.
  - destruct I as [<-|[]]. auto.
  - inversion N as [|y l' NI NL]; subst. destruct (str_eqb (s_name x) n) eqn:E.
    + apply str_eqb_iff in E. destruct I as [<-|I]; [auto|]. right. split; [|simpl; auto].
      intros X. apply NI. rewrite E, <- X. now apply in_map.
    + destruct I as [<-|I].
      * right. split; [|simpl; auto]. intros X. apply str_eqb_iff in X. congruence.
      * destruct (IH NL I) as [H|[H1 H2]]; [auto|]. right. simpl. auto.
Qed.

Definition config_of (s : cf_state) : config_t := mkConfig (c_sequences s) (Some (c_ignore s)).

Lemma define_in_force filename s d ds : in_force ds (config_of s) -> in_force (ds ++ [(filename, d)]) (config_of (define filename s d)).
Proof.
  unfold in_force, config_of. simpl. intros (N & F & I). destruct d as [n fs|ns]; simpl.
  - assert (ND : NoDup (map s_name (c_sequences s))) by (rewrite N; apply first_names_nodup). splits.
    + rewrite put_names, names_app, N. simpl. rewrite first_names_snoc.
      destruct (in_dec str_dec n (first_names (names ds))) as [A|A], (in_dec str_dec n (names ds)) as [B|B]; try reflexivity.
      * elim B. now apply first_names_in.
      * elim A. now apply first_names_in.
    + apply Forall_forall. intros x X. rewrite last_snoc. simpl.
      destruct (put_elements _ _ _ _ _ ND X) as [(A & B & C)|(A & B)].
      * exists filename. split; [easy|]. replace (str_eqb n (s_name x)) with true; [now rewrite B|].
        symmetry. apply str_eqb_iff. auto.
      * replace (str_eqb n (s_name x)) with false.
        { rewrite Forall_forall in F. now apply F. }
        symmetry. apply not_true_iff_false. intros Y. apply str_eqb_iff in Y. congruence.
    + rewrite ignored_app, I. simpl. now rewrite app_nil_r.
  - splits.
    + now rewrite names_app, app_nil_r.
    + eapply Forall_impl; [|exact F]. intros x (src & A & B). exists src. split; [easy|]. rewrite last_snoc. exact B.
    + rewrite ignored_app, I. simpl. now rewrite app_nil_r.
Qed.

Lemma defines_in_force filename ds' : forall s ds, in_force ds (config_of s) ->
  in_force (ds ++ map (pair filename) ds') (config_of (fold_left (define filename) ds' s)).
Proof.
  induction ds' as [|d ds' IH]; intros s ds H; [now rewrite app_nil_r|].
  cbn [map fold_left]. change ((filename, d) :: map (pair filename) ds') with ([(filename, d)] ++ map (pair filename) ds').
  rewrite app_assoc. apply IH. now apply define_in_force.
Qed.

(** ** Whole files *)

(** The configuration before any file, or after some. *)
Definition known (ds : list located) (c : option config_t) : Prop :=
  match c with Some c => in_force ds c | None => ds = [] end.

Definition start (c : option config_t) : cf_state :=
  mkCf (match c with Some c => cf_sequences c | None => [] end) [] None
       (match c with Some c => match cf_ignore c with Some l => l | None => [] end | None => [] end).

Lemma known_start ds c : known ds c -> in_force ds (config_of (start c)).
Proof.
  destruct c as [c|]; simpl.
  - intros (A & B & C). unfold in_force, config_of. simpl. auto.
  - intros ->. unfold in_force, config_of. simpl. splits; auto.
Qed.

Lemma parse_good files filename previous bytes ts printed ds before :
  files filename = Contents bytes -> scans bytes ts printed -> config_text ts ds -> known before previous ->
  exists c, parse_config_file files filename previous = (printed, Ok (Some c)) /\
            in_force (before ++ map (pair filename) ds) c.
Proof.
  intros E S C K. unfold parse_config_file. rewrite E. fold (start previous).
  pose proof (yyparse_scans filename _ _ _ S (length bytes) P_top (start previous) (le_n _)) as Y.
  destruct (play_grammar filename ts (start previous) eq_refl) as [G _]. rewrite (G _ C) in Y. rewrite Y.
  eexists. split.
  - unfold wbind. simpl. rewrite app_nil_r. reflexivity.
  - apply (defines_in_force filename ds (start previous) before). now apply known_start.
Qed.

Lemma parse_bad files filename previous bytes ts printed :
  files filename = Contents bytes -> scans bytes ts printed -> (forall ds, ~ config_text ts ds) ->
  snd (parse_config_file files filename previous) = Exit EXIT_FAILURE.
Proof.
  intros E S C. unfold parse_config_file. rewrite E. fold (start previous).
  pose proof (yyparse_scans filename _ _ _ S (length bytes) P_top (start previous) (le_n _)) as Y.
  destruct (play_grammar filename ts (start previous) eq_refl) as [_ G].
  assert (X : snd (yyparse (length bytes) filename P_top (start previous) bytes) = Exit EXIT_FAILURE).
  { destruct (play filename P_top (start previous) ts) as [[[] s']|] eqn:P; try exact Y.
    destruct (G s' eq_refl) as (ds & D & _). now apply C in D. }
  unfold wbind. rewrite X. reflexivity.
Qed.
