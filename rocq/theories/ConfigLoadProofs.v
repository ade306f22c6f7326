(** * Series of configuration files *)

From Verif Require Import Base BaseFacts Stdio ParseTableSpec ParseTableProofs Filter Spoof ConfigLex ConfigParse ConfigSpec ConfigLexProofs
  ConfigLayoutProofs ConfigProofs ConfigLoad ConfigLoadSpec ConfigFiles.

Local Open Scope nat_scope.

Lemma wbind_ret {A B} (a : A) (k : A -> wres B) : wbind ([], Ok a) k = k a.
Proof. unfold wbind. simpl. now destruct (k a). Qed.

Lemma wbind_id {A} (m : wres A) : wbind m (fun a => ([], Ok a)) = m.
Proof. destruct m as [p [a|w|c]]; unfold wbind; simpl; now rewrite ?app_nil_r. Qed.

Lemma wbind_assoc {A B C} (m : wres A) (k : A -> wres B) (j : B -> wres C) :
  wbind (wbind m k) j = wbind m (fun a => wbind (k a) j).
Proof.
  destruct m as [p [a|w|c]]; unfold wbind; simpl; try reflexivity.
  destruct (k a) as [p' [b|w|c]]; simpl; try reflexivity. now rewrite app_assoc.
Qed.

Lemma read_all_defined files paths ds : defined_in files paths ds -> forall before previous, known before previous ->
  exists printed c, read_all files paths previous = (printed, Ok c) /\ known (before ++ ds) c.
Proof.
  induction 1 as [|p rest ds N D IH|p bytes ts printed here rest ds E S C D IH]; intros before previous K; cbn [read_all].
  - exists [], previous. rewrite app_nil_r. auto.
  - unfold parse_config_file. rewrite N, wbind_ret. now apply IH.
  - destruct (parse_good _ _ previous _ _ _ _ _ E S C K) as (c & P & F). rewrite P.
    destruct (IH _ (Some c) F) as (printed' & c' & R & K'). exists (printed ++ printed'), c'.
    unfold wbind. simpl. rewrite R. rewrite app_assoc. auto.
Qed.

Lemma in_force_unique ds c : in_force ds c -> NoDup (map s_name (cf_sequences c)).
Proof. intros (N & _). rewrite N. apply first_names_nodup. Qed.

Lemma parse_some files p previous c : files p <> NoFile -> snd (parse_config_file files p previous) = Ok c -> c <> None.
Proof.
  unfold parse_config_file. destruct (files p); [easy|discriminate|]. intros _. unfold wbind.
  destruct (snd (yyparse _ _ _ _ _)); try discriminate. simpl. intros H. injection H as <-. discriminate.
Qed.

Lemma parse_missing files p previous : files p = NoFile -> parse_config_file files p previous = ([], Ok previous).
Proof. intros H. unfold parse_config_file. now rewrite H. Qed.

(** Once a configuration is there, the other system-wide files are left alone. *)
Lemma wbind_some files p (k k' : option config_t -> wres config_t) : files p <> NoFile -> (forall c, k (Some c) = k' (Some c)) ->
  wbind (parse_config_file files p None) k = wbind (parse_config_file files p None) k'.
Proof.
  intros N H. pose proof (fun c => parse_some files p None c N) as S. destruct (parse_config_file files p None) as [pr [c|w|c]]; try reflexivity.
  destruct c as [c|]; [|now destruct (S None eq_refl)]. unfold wbind. simpl. now rewrite H.
Qed.

Definition user_part (env : environment) (c : option config_t) : wres config_t :=
  wbind (read_all (e_files env) (filter (considered env) (user_paths env)) c)
    (fun c => match c with Some c => ([], Ok c) | None => ([], Ok spoof_config_file) end).

Lemma considered_spec env p : considered env p = true <-> (strlen p < MAX_PATH_LEN)%N /\ e_files env p <> NoFile.
Proof.
  unfold considered, strlen, MAX_PATH_LEN. rewrite andb_true_iff, Nat.ltb_lt. split.
  - intros [A B]. split; [lia|]. now destruct (e_files env p).
  - intros [A B]. split; [lia|]. now destruct (e_files env p).
Qed.

Lemma short_read env p c (k : option config_t -> wres config_t) :
  wbind (parse_if_short (e_files env) p c) k = wbind (read_all (e_files env) (filter (considered env) [p]) c) k.
Proof.
  unfold parse_if_short. cbn [filter]. destruct (considered env p) eqn:E.
  - apply considered_spec in E. destruct E as [A B]. apply N.ltb_lt in A. rewrite A. cbn [read_all].
    now rewrite wbind_id.
  - cbn [read_all]. destruct (N.ltb_spec (strlen p) MAX_PATH_LEN) as [L|L]; [|reflexivity].
    destruct (e_files env p) eqn:F.
    + now rewrite parse_missing.
    + assert (considered env p = true) by (apply considered_spec; split; [easy|congruence]). congruence.
    + assert (considered env p = true) by (apply considered_spec; split; [easy|congruence]). congruence.
Qed.

Lemma read_all_app files a b c : read_all files (a ++ b) c = wbind (read_all files a c) (read_all files b).
Proof.
  revert c. induction a as [|p a IH]; intros c; cbn [app read_all].
  - now rewrite wbind_ret.
  - rewrite wbind_assoc. unfold wbind at 1 2. destruct (parse_config_file files p c) as [pr [c'|w|x]]; simpl; try reflexivity.
    now rewrite IH.
Qed.

Lemma wbind_ext {A B} (m : wres A) (k k' : A -> wres B) : (forall a, k a = k' a) -> wbind m k = wbind m k'.
Proof. intros H. unfold wbind. destruct (snd m); auto. now rewrite H. Qed.

Lemma load_user env c :
  wbind (match e_getenv env (bs "HOME") with
         | Some h => parse_if_short (e_files env) (h ++ bs "/.detoxrc") c
         | None => ([], Ok c)
         end) (fun c =>
  wbind (match e_getenv env (bs "XDG_CONFIG_HOME") with
         | Some h => parse_if_short (e_files env) (h ++ bs "/detox/detoxrc") c
         | None => ([], Ok c)
         end) (fun c => match c with Some c => ([], Ok c) | None => ([], Ok spoof_config_file) end))
  = user_part env c.
Proof.
  unfold user_part, user_paths. rewrite filter_app, read_all_app, wbind_assoc.
  assert (X : forall c, wbind (match e_getenv env (bs "XDG_CONFIG_HOME") with
         | Some h => parse_if_short (e_files env) (h ++ bs "/detox/detoxrc") c
         | None => ([], Ok c)
         end) (fun c => match c with Some c => ([], Ok c) | None => ([], Ok spoof_config_file) end) =
    wbind (read_all (e_files env) (filter (considered env)
       match e_getenv env (bs "XDG_CONFIG_HOME") with Some d => [d ++ bs "/detox/detoxrc"] | None => [] end) c)
      (fun c => match c with Some c => ([], Ok c) | None => ([], Ok spoof_config_file) end)).
  { intros c'. destruct (e_getenv env (bs "XDG_CONFIG_HOME")) as [h|]; [apply short_read|reflexivity]. }
  destruct (e_getenv env (bs "HOME")) as [h|].
  - rewrite short_read. apply wbind_ext. exact X.
  - cbn [filter read_all]. rewrite !wbind_ret. apply X.
Qed.

(** The system-wide part: the first file considered, if any. *)
Lemma config_file_load_spec env :
  config_file_load env None =
  wbind (read_all (e_files env) (config_paths env) None)
    (fun c => match c with Some c => ([], Ok c) | None => ([], Ok spoof_config_file) end).
Proof.
  unfold config_paths. rewrite read_all_app, wbind_assoc.
  change (config_file_load env None = wbind (read_all (e_files env) (firstn 1 (filter (considered env) (system_paths env))) None) (user_part env)).
  unfold config_file_load.
  set (files := e_files env).
  (* fold the user's part *)
  transitivity (wbind (match e_sysconfdir env with
           | Some d => parse_if_short files (d ++ bs "/detoxrc") None
           | None => ([], Ok None)
           end) (fun c =>
    wbind (or_else files (bs "/etc/detoxrc") c) (fun c =>
    wbind (or_else files (bs "/usr/local/etc/detoxrc") c) (user_part env)))).
  { apply wbind_ext. intros c. apply wbind_ext. intros c'. apply wbind_ext. intros c''. apply load_user. }
  assert (L : forall p, p = bs "/etc/detoxrc" \/ p = bs "/usr/local/etc/detoxrc" ->
              considered env p = match files p with NoFile => false | _ => true end).
  { intros p [->| ->]; reflexivity. }
  assert (REST : wbind (or_else files (bs "/etc/detoxrc") None) (fun c =>
                   wbind (or_else files (bs "/usr/local/etc/detoxrc") c) (user_part env)) =
                 wbind (read_all files (firstn 1 (filter (considered env) [bs "/etc/detoxrc"; bs "/usr/local/etc/detoxrc"])) None) (user_part env)).
  { cbn [or_else filter]. rewrite !L by auto. destruct (files (bs "/etc/detoxrc")) eqn:E.
    - rewrite parse_missing by easy. rewrite wbind_ret. cbn [or_else].
      destruct (files (bs "/usr/local/etc/detoxrc")) eqn:E'.
      + rewrite parse_missing by easy. reflexivity.
      + cbn [firstn read_all]. now rewrite wbind_id.
      + cbn [firstn read_all]. now rewrite wbind_id.
    - cbn [firstn read_all]. rewrite wbind_id. apply wbind_some; [congruence|]. intros c. cbn [or_else]. apply wbind_ret.
    - cbn [firstn read_all]. rewrite wbind_id. apply wbind_some; [congruence|]. intros c. cbn [or_else]. apply wbind_ret. }
  unfold system_paths. destruct (e_sysconfdir env) as [d|].
  - cbn [app filter]. unfold parse_if_short. destruct (considered env (d ++ bs "/detoxrc")) eqn:C.
    + apply considered_spec in C. destruct C as [A B]. apply N.ltb_lt in A. rewrite A. cbn [firstn read_all].
      rewrite wbind_id. apply wbind_some; [exact B|]. intros c. cbn [or_else]. rewrite wbind_ret. cbn [or_else]. now rewrite wbind_ret.
    + assert (X : (if (strlen (d ++ bs "/detoxrc") <? MAX_PATH_LEN)%N then parse_config_file files (d ++ bs "/detoxrc") None
                   else ([], Ok None)) = ([], Ok None)).
      { destruct (N.ltb_spec (strlen (d ++ bs "/detoxrc")) MAX_PATH_LEN) as [LT|LT]; [|reflexivity].
        apply parse_missing. destruct (files (d ++ bs "/detoxrc")) eqn:F; [easy| |].
        - assert (considered env (d ++ bs "/detoxrc") = true) by (apply considered_spec; split; [easy|unfold files in F; congruence]). congruence.
        - assert (considered env (d ++ bs "/detoxrc") = true) by (apply considered_spec; split; [easy|unfold files in F; congruence]). congruence. }
      rewrite X, wbind_ret. exact REST.
  - rewrite wbind_ret. exact REST.
Qed.

Lemma read_all_some files paths previous c : (exists p, In p paths /\ files p <> NoFile) ->
  snd (read_all files paths previous) = Ok c -> c <> None.
Proof.
  assert (K : forall paths c0 c, snd (read_all files paths (Some c0)) = Ok c -> c <> None).
  { clear. intros paths. induction paths as [|p paths IH]; intros c0 c H; cbn [read_all] in H.
    - injection H as <-. discriminate.
    - unfold wbind in H. destruct (snd (parse_config_file files p (Some c0))) as [c1|w|x] eqn:P; try discriminate.
      destruct c1 as [c1|].
      + apply (IH c1). exact H.
      + exfalso. destruct (files p) eqn:F.
        * rewrite parse_missing in P by easy. discriminate.
        * unfold parse_config_file in P. rewrite F in P. discriminate.
        * apply (parse_some files p (Some c0) None); [congruence|exact P|easy]. }
  revert previous. induction paths as [|p paths IH]; intros previous (q & I & N) H; [easy|].
  cbn [read_all] in H. unfold wbind in H. destruct (snd (parse_config_file files p previous)) as [c1|w|x] eqn:P; try discriminate.
  destruct c1 as [c1|]; [now apply (K _ _ _ H)|]. destruct I as [->|I].
  - exfalso. now apply (parse_some files q previous None N P).
  - apply (IH None); eauto.
Qed.

(** ** Writing *)

Lemma spellable_layout ts : Forall (fun t => exists s, spelled t s) ts ->
  exists text, layout ts text /\ (forall c r, text = c :: r -> c = x20).
Proof.
  induction 1 as [|t ts (s & S) F (text & L & H)].
  - exists []. split; [|discriminate]. apply lay_end. left. constructor.
  - exists ([x20] ++ s ++ text). split.
    + apply lay_token; auto.
      * constructor; [auto|constructor].
      * intros _ c r E. apply H in E. subst c. intros W. apply wordchar_iff in W. discriminate.
    + intros c r E. now injection E as <- _.
Qed.

Lemma key_spelled k : exists s, spelled (T_key k) s.
Proof. exists (keyword_text k). constructor. apply same_text_lower. reflexivity. Qed.

Lemma quoted_spelled s : writable s -> exists x, spelled (T_qstring s) x.
Proof. intros (A & B & C). eexists. now constructor. Qed.

Lemma punctuation_spelled : (exists s, spelled T_open s) /\ (exists s, spelled T_close s) /\ (exists s, spelled T_eol s).
Proof. repeat split; eexists; constructor. Qed.

Lemma digit_of d : (d < 10)%N -> exists c, digit c d.
Proof.
  intros H. unfold digit.
  assert (C : (d = 0 \/ d = 1 \/ d = 2 \/ d = 3 \/ d = 4 \/ d = 5 \/ d = 6 \/ d = 7 \/ d = 8 \/ d = 9)%N) by lia.
  repeat (destruct C as [->|C]; [eexists; left; reflexivity|]). subst d. eexists; left; reflexivity.
Qed.

Lemma digits_of v : exists s, s <> [] /\ digits 10 s v.
Proof.
  induction v as [v IH] using (well_founded_induction N.lt_wf_0).
  destruct (digit_of (v mod 10)) as (c & C); [apply N.mod_lt; lia|].
  destruct (N.lt_ge_cases v 10) as [L|L].
  - exists [c]. split; [easy|]. exists [v]. rewrite N.mod_small in C by easy. splits; auto.
  - destruct (IH (v / 10)%N) as (s & NE & ds & F & B & E); [apply N.div_lt; lia|].
    exists (s ++ [c]). split; [now destruct s|]. exists (ds ++ [v mod 10])%N. splits.
    + apply Forall2_app; auto.
    + apply Forall_app. split; auto. constructor; auto. apply N.mod_lt. lia.
    + unfold positional in *. rewrite fold_left_app, <- E. cbn [fold_left]. apply N.div_mod. lia.
Qed.

Lemma number_spelled v : (v < 2 ^ 31)%N -> exists s, spelled (T_number (Z.of_N v)) s.
Proof. intros H. destruct (digits_of v) as (s & NE & D). exists s. now constructor. Qed.

Ltac spell :=
  repeat match goal with
  | |- Forall _ (_ ++ _) => apply Forall_app; split
  | |- Forall _ (_ :: _) => constructor
  | |- Forall _ [] => constructor
  | |- exists s, spelled (T_key _) s => apply key_spelled
  | |- exists s, spelled T_open s => apply punctuation_spelled
  | |- exists s, spelled T_close s => apply punctuation_spelled
  | |- exists s, spelled T_eol s => apply punctuation_spelled
  | |- exists s, spelled (T_qstring _) s => apply quoted_spelled; assumption
  end.

Lemma filter_tokens f : writable_filter f -> exists ts, method ts f /\ Forall (fun t => exists s, spelled t s) ts.
Proof.
  destruct 1 as [c U|c n I W|c n I W| |n L].
  - destruct c; try (exfalso; eapply U; reflexivity).
    + eexists. split; [apply me_iso, t_plain|spell].
    + eexists. split; [apply me_lower|spell].
    + eexists. split; [apply me_length|spell].
    + eexists. split; [apply me_safe, t_plain|spell].
    + eexists. split; [apply me_uncgi|spell].
    + eexists. split; [apply me_utf, t_plain|spell].
    + eexists. split; [apply me_wipeup|spell].
  - simpl in I. destruct I as [<-|[<-|[<-|[]]]]; eexists.
    + split; [apply me_iso, t_file, s_quoted|spell].
    + split; [apply me_utf, t_file, s_quoted|spell].
    + split; [apply me_safe, t_file, s_quoted|spell].
  - simpl in I. destruct I as [<-|[<-|[<-|[]]]]; eexists.
    + split; [apply me_iso, t_builtin, s_quoted|spell].
    + split; [apply me_utf, t_builtin, s_quoted|spell].
    + split; [apply me_safe, t_builtin, s_quoted|spell].
  - eexists. split; [apply me_wipeup_trailing|spell].
  - exists [T_key K_max_length; T_open; T_key K_length; T_number (Z.of_N n); T_eol; T_close; T_eol]. split.
    + replace n with (as_size (Z.of_N n)) at 2; [constructor|]. unfold as_size. rewrite Z.mod_small; lia.
    + spell. now apply number_spelled.
Qed.

Lemma filters_tokens fs : fs <> [] -> Forall writable_filter fs ->
  exists ts, methods ts fs /\ Forall (fun t => exists s, spelled t s) ts.
Proof.
  induction fs as [|f fs IH] using rev_ind; [easy|]. intros _ W. apply Forall_app in W. destruct W as [W F].
  inversion F as [|? ? F1 _]; subst. destruct (filter_tokens _ F1) as (ts' & M & S).
  destruct fs as [|g fs].
  - exists ts'. split; [now constructor|exact S].
  - destruct IH as (ts & MS & SS); [discriminate|exact W|]. exists (ts ++ ts'). split; [now constructor|].
    apply Forall_app. auto.
Qed.

Lemma ignores_tokens ns : ns <> [] -> Forall writable ns ->
  exists ts, ignores ts ns /\ Forall (fun t => exists s, spelled t s) ts.
Proof.
  induction ns as [|n ns IH] using rev_ind; [easy|]. intros _ W. apply Forall_app in W. destruct W as [W F].
  inversion F as [|? ? F1 _]; subst. destruct ns as [|g ns].
  - exists (T_key K_filename :: [T_qstring n] ++ [T_eol]). split; [apply ig_one; constructor|spell].
  - destruct IH as (ts & MS & SS); [discriminate|exact W|].
    exists (ts ++ T_key K_filename :: [T_qstring n] ++ [T_eol]). split; [apply ig_more; [exact MS|constructor]|].
    apply Forall_app. split; [exact SS|spell].
Qed.

Lemma definitions_tokens ds : Forall writable_definition ds ->
  exists ts, config_text ts ds /\ Forall (fun t => exists s, spelled t s) ts.
Proof.
  induction ds as [|d ds IH] using rev_ind; intros W; [exists []; split; constructor|].
  apply Forall_app in W. destruct W as [W D]. inversion D as [|? ? D1 _]; subst.
  destruct (IH W) as (ts & C & S).
  assert (R : exists ts', a_rule ts' d /\ Forall (fun t => exists s, spelled t s) ts').
  { destruct d as [n fs|ns].
    - destruct D1 as (WN & NE & WF). destruct (filters_tokens _ NE WF) as (ts' & M & MS).
      eexists. split; [apply (r_sequence [T_qstring n]); [constructor|exact M]|spell]; auto.
    - destruct D1 as (NE & WF). destruct (ignores_tokens _ NE WF) as (ts' & M & MS).
      eexists. split; [apply r_ignore; exact M|spell]; auto. }
  destruct R as (ts' & R & S'). exists (ts ++ ts'). split; [now constructor|]. apply Forall_app. auto.
Qed.

(** ** Every text *)

Lemma every_text files filename previous before bytes :
  files filename = Contents bytes -> nonul bytes -> known before previous ->
  exists ts printed, scans bytes ts printed /\ (forall ts' printed', scans bytes ts' printed' -> ts' = ts /\ printed' = printed) /\
    ((exists ds c, config_text ts ds /\ parse_config_file files filename previous = (printed, Ok (Some c)) /\
                   in_force (before ++ map (pair filename) ds) c) \/
     ((forall ds, ~ config_text ts ds) /\ snd (parse_config_file files filename previous) = Exit EXIT_FAILURE)).
Proof.
  intros E N K. destruct (scans_exist _ N) as (ts & printed & S). exists ts, printed. split; [exact S|].
  split; [exact (scans_unique _ _ _ S)|].
  destruct (play_grammar filename ts (start previous) eq_refl) as [G1 G2].
  assert (D : (exists ds, config_text ts ds) \/ (forall ds, ~ config_text ts ds)).
  { destruct (play filename P_top (start previous) ts) as [[p s']|] eqn:P.
    - assert (X : p = P_top \/ p <> P_top) by (destruct p; auto; right; discriminate). destruct X as [->|X].
      + left. destruct (G2 s' eq_refl) as (ds & C & _). eauto.
      + right. intros ds C. apply G1 in C. congruence.
    - right. intros ds C. apply G1 in C. congruence. }
  destruct D as [(ds & C)|C].
  - left. destruct (parse_good _ _ _ _ _ _ _ _ E S C K) as (c & P & F). eauto.
  - right. split; [exact C|]. eapply parse_bad; eauto.
Qed.

(** A NUL byte inside a quoted string. *)
Lemma nul_in_string files filename previous s rest :
  files filename = Contents (quote :: s ++ quote :: rest) -> In NUL s -> ~ In quote s -> ~ In newline s ->
  parse_config_file files filename previous = ([], UB ReadPastEnd).
Proof.
  intros E N Q L. unfold parse_config_file. rewrite E. cbn [length yyparse].
  assert (R : lex_round (quote :: s ++ quote :: rest) = UB ReadPastEnd).
  { pose proof (munch_qstring s rest Q L) as M. apply munch_best in M.
    cbn [app] in M. rewrite <- app_assoc in M. cbn [app] in M.
    unfold lex_round. rewrite M. cbn [lex_action].
    assert (F : firstn (length (quote :: s ++ [quote])) (quote :: s ++ quote :: rest) = quote :: s ++ [quote]).
    { change (quote :: s ++ quote :: rest) with ((quote :: s) ++ [quote] ++ rest). rewrite app_assoc. apply app_firstn. }
    rewrite F. unfold lex_qstring. cbn [tl].
    replace (length (quote :: s ++ [quote]) - 2) with (length s) by (simpl; rewrite app_length; simpl; lia).
    assert (C : forall u, In NUL u -> forall v, length (cstr (u ++ v)) < length u).
    { clear. intros u. induction u as [|c u IH]; intros I v; [easy|]. simpl. destruct (beq c NUL) eqn:B; simpl; [lia|].
      destruct I as [->|I]; [discriminate|]. specialize (IH I v). lia. }
    specialize (C s N [quote]). apply Nat.ltb_lt in C. rewrite C. reflexivity. }
  rewrite R. reflexivity.
Qed.

(** ** As stated in PropConfig.v *)

Lemma series_result :
  forall files paths ds, defined_in files paths ds ->
    exists printed c, read_all files paths None = (printed, Ok c) /\
      match c with
      | Some c => in_force ds c /\ NoDup (map s_name (cf_sequences c))
      | None => ds = [] /\ forall p, In p paths -> files p = NoFile
      end.
Proof.
  intros files paths ds D. destruct (read_all_defined files paths ds D [] None eq_refl) as (printed & c & R & K).
  exists printed, c. split; [exact R|]. destruct c as [c|].
  - split; [exact K|exact (in_force_unique _ _ K)].
  - split; [exact K|]. intros p I. destruct (files p) eqn:F; [reflexivity| |]; exfalso.
    + apply (read_all_some files paths None None); [exists p; split; [exact I|congruence]|now rewrite R|reflexivity].
    + apply (read_all_some files paths None None); [exists p; split; [exact I|congruence]|now rewrite R|reflexivity].
Qed.

Lemma everything_written :
  forall ds, Forall writable_definition ds ->
    exists ts contents, config_text ts ds /\ layout ts contents /\
      forall files filename, files filename = Contents contents ->
        exists c, parse_config_file files filename None = ([], Ok (Some c)) /\ in_force (map (pair filename) ds) c.
Proof.
  intros ds W. destruct (definitions_tokens ds W) as (ts & C & S). destruct (spellable_layout ts S) as (contents & L & _).
  exists ts, contents. split; [exact C|]. split; [exact L|]. intros files filename F.
  exact (parse_good files filename None contents ts [] ds [] F (layout_scans _ _ L) C eq_refl).
Qed.

Lemma series_error :
  forall files good bad rest ds before previous bytes ts printed,
    defined_in files good ds -> known before previous ->
    files bad = Contents bytes -> scans bytes ts printed -> (forall ds, ~ config_text ts ds) ->
    snd (read_all files (good ++ bad :: rest) previous) = Exit EXIT_FAILURE.
Proof.
  intros files good bad rest ds before previous bytes ts printed D K B S N. rewrite read_all_app.
  destruct (read_all_defined files good ds D before previous K) as (pr & c & R & _). rewrite R. unfold wbind at 1. cbn [snd fst].
  cbn [read_all]. unfold wbind. now rewrite (parse_bad files bad c bytes ts printed B S N).
Qed.

Lemma detoxrc_is_builtin :
  forall files filename, files filename = Contents detoxrc ->
    exists c, parse_config_file files filename None = ([], Ok (Some c)) /\
      without_source c = without_source spoof_config_file /\
      Forall (fun s => s_source s = Some filename) (cf_sequences c).
Proof.
  intros files filename E. unfold parse_config_file. rewrite E. eexists. split; [vm_compute; reflexivity|].
  split; [vm_compute; reflexivity|]. repeat constructor.
Qed.

Lemma load_in_force :
  forall env ds, config_paths env <> [] -> defined_in (e_files env) (config_paths env) ds ->
    exists printed c, config_file_load env None = (printed, Ok c) /\ in_force ds c.
Proof.
  intros env ds N D. rewrite config_file_load_spec.
  destruct (read_all_defined _ _ ds D [] None eq_refl) as (printed & c & R & K). rewrite R.
  destruct c as [c|].
  - exists printed, c. split; [|exact K]. unfold wbind. simpl. now rewrite app_nil_r.
  - exfalso. apply (read_all_some (e_files env) (config_paths env) None None); [|now rewrite R|reflexivity].
    destruct (config_paths env) as [|p r] eqn:P; [easy|]. exists p. split; [simpl; auto|].
    assert (C : considered env p = true).
    { assert (I : In p (config_paths env)) by (rewrite P; simpl; auto). unfold config_paths in I.
      apply in_app_iff in I. destruct I as [I|I].
      - assert (J : In p (filter (considered env) (system_paths env))).
        { rewrite <- (firstn_skipn 1 (filter (considered env) (system_paths env))). apply in_app_iff. auto. }
        apply filter_In in J. apply J.
      - apply filter_In in I. apply I. }
    apply considered_spec in C. apply C.
Qed.

Lemma load_explicit :
  forall env path bytes ts printed ds,
    e_files env path = Contents bytes -> scans bytes ts printed -> config_text ts ds ->
    exists c, config_file_load env (Some path) = (printed, Ok c) /\ in_force (map (pair path) ds) c.
Proof.
  intros env path bytes ts printed ds E S C.
  destruct (parse_good (e_files env) path None bytes ts printed ds [] E S C eq_refl) as (c & P & F).
  exists c. split; [|exact F]. unfold config_file_load. rewrite P. unfold wbind. simpl. now rewrite app_nil_r.
Qed.

Lemma no_nul_safe :
  forall files filename before previous bytes,
    files filename = Contents bytes -> nonul bytes -> known before previous ->
    forall w, snd (parse_config_file files filename previous) <> UB w.
Proof.
  intros files filename before previous bytes E N K w U.
  destruct (every_text files filename previous before bytes E N K) as (ts & pr & _ & _ & [(ds & c & _ & P & _)|[_ P]]).
  - rewrite P in U. discriminate.
  - rewrite P in U. discriminate.
Qed.
