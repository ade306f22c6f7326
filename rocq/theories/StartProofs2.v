(** * What the program says about its command line: proofs *)

From Verif Require Import Base BaseFacts Filter Filelist FilelistProofs File FileSpec Prog Warnings WarningsProofs ConfigParse ConfigLoad ConfigLoadProofs
  Options OptionsSpec OptionsProofs Startup StartProofs StartOptions Main MainSpec MainProofs GenSpec StartSpec.

Local Open Scope nat_scope.

(** ** Texts behind two dashes *)

Lemma name_in_upto text name rest : name_in text name rest ->
  upto_equals text = (name, match rest with [] => false | _ => true end).
Proof.
  intros (-> & N & R). induction name as [|c name IH]; simpl.
  - destruct R as [->|(v & ->)]; reflexivity.
  - destruct (beq c "=") eqn:E; [apply beq_eq in E; subst; elim N; now left|]. rewrite IH; [reflexivity|].
    intros I. apply N. now right.
Qed.

Lemma name_in_exists text : exists name rest, name_in text name rest.
Proof.
  induction text as [|c text (name & rest & -> & N & R)].
  - exists [], []. unfold name_in. splits; auto.
  - destruct (beq c "=") eqn:E.
    + apply beq_eq in E. subst. exists [], ("="%byte :: name ++ rest). unfold name_in. splits; auto. right. eauto.
    + apply beq_neq in E. exists (c :: name), rest. unfold name_in. splits; auto. intros [->|I]; auto.
Qed.

(** The two ways to look for a name. *)
Definition searched (name : str) : option (str * report) :=
  match find (fun o => str_eqb (fst o) name) longopts with
  | Some o => Some o
  | None => match filter (fun o => is_prefix name (fst o)) longopts with [o] => Some o | _ => None end
  end.

Lemma long_searched full w name more : long_name full w -> full = name ++ more -> name <> [] ->
  exists r, searched name = Some (full, r).
Proof.
  intros L E N.
  destruct L; cbn [bs list_byte_of_string] in E;
    (destruct name as [|c1 text]; [now elim N|]; clear N; simpl in E; injection E as <- E);
    repeat (destruct text as [|? text]; [clear E; eexists; vm_compute; reflexivity|]; simpl in E; injection E as <- E);
    (destruct text as [|? text]; [clear E; eexists; vm_compute; reflexivity|discriminate E]).
Qed.

Lemma long_nothing name : name <> [] -> (forall w, ~ long_option name w) ->
  find (fun o => str_eqb (fst o) name) longopts = None /\ filter (fun o => is_prefix name (fst o)) longopts = [].
Proof.
  intros N U.
  assert (A : forall o, In o longopts -> exists w, long_name (fst o) w).
  { intros o I. simpl in I. repeat (destruct I as [<-|I]; [eexists; constructor|]). elim I. }
  split.
  - destruct (find _ longopts) as [o|] eqn:F; [|reflexivity]. apply find_some in F. destruct F as [I E]. apply str_eqb_eq in E.
    destruct (A _ I) as [w L]. elim (U w). split; auto. exists (fst o), []. split; auto. now rewrite app_nil_r.
  - destruct (filter _ longopts) as [|o l] eqn:F; [reflexivity|].
    assert (I : In o (filter (fun o => is_prefix name (fst o)) longopts)) by (rewrite F; now left).
    apply filter_In in I. destruct I as [I P]. apply is_prefix_iff in P. destruct P as [m P]. destruct (A _ I) as [w L].
    elim (U w). split; auto. exists (fst o), m. auto.
Qed.

Lemma long_says_bad prog text d : wrong_name text d -> long_code_says prog longopts text = (BAD, Some (worded prog d)).
Proof.
  intros [name rest NI N U|full name more value w NI N L E|value E].
  - unfold long_code_says. rewrite (name_in_upto _ _ _ NI). destruct (long_nothing _ N U) as [-> ->]. reflexivity.
  - destruct (long_searched _ _ _ _ L E N) as (r & S). unfold long_code_says. rewrite (name_in_upto _ _ _ NI).
    unfold searched in S. destruct (find _ longopts) as [o|].
    + injection S as ->. reflexivity.
    + destruct (filter _ longopts) as [|o [|o' l]]; try discriminate. injection S as ->. reflexivity.
  - subst text. reflexivity.
Qed.

Lemma wrong_name_iff text : text <> [] -> ((exists d, wrong_name text d) <-> forall w, ~ long_option text w).
Proof.
  intros NE. split.
  - intros (d & W) w L. pose proof (long_code_good _ _ L) as S. rewrite <- (long_code_same []) in S.
    destruct (long_says_good [] _ _ L) as (c & _ & E). rewrite (long_says_bad [] _ _ W) in E. discriminate.
  - intros U. destruct (name_in_exists text) as (name & rest & NI). pose proof NI as (E & N & R). destruct name as [|c name].
    + destruct R as [->|(v & ->)]; [now elim NE|]. exists (Name_missing text). subst text. econstructor. reflexivity.
    + destruct (long_option_dec (c :: name)) as [(w & L)|V].
      * destruct R as [->|(v & ->)].
        { rewrite app_nil_r in E. subst text. now apply U in L. }
        destruct L as (_ & full & more & L & F). exists (Value_given full). eapply wn_value; eauto. discriminate.
      * exists (Unknown_name text). eapply wn_unknown; eauto. discriminate.
Qed.

(** ** Complaints are about mistakes *)

Lemma complaint_mistake posix args ws d : complaint posix args ws d -> mistake posix args ws.
Proof.
  induction 1; try (econstructor; eauto; fail).
  assert (N : text <> []).
  { intros ->. inversion H as [name rest0 (E & _) N _|full name more value w (E & _) N _ _|value E]; try discriminate.
    - symmetry in E. now destruct name.
    - symmetry in E. now destruct name. }
  apply mistake_long; auto. apply wrong_name_iff; eauto.
Qed.

Lemma mistake_complaint posix args ws : mistake posix args ws -> exists d, complaint posix args ws d.
Proof.
  induction 1 as [cs us c r rest A K D|cs us c v w A L|text rest N U|f rest ws P O _ (d & IH)|cs us rest ws N A _ (d & IH)
                 |cs us c v w rest ws A L N _ (d & IH)|cs us c v w rest ws A L _ (d & IH)|text w rest ws L _ (d & IH)].
  - exists (Unknown_letter c). now constructor.
  - exists (Value_missing c). econstructor; eauto.
  - apply (wrong_name_iff _ N) in U. destruct U as (d & W). exists d. now constructor.
  - exists d. now constructor.
  - exists d. now constructor.
  - exists d. eapply cp_attached; eauto.
  - exists d. eapply cp_separate; eauto.
  - exists d. now apply cp_after_long.
Qed.

(** ** The complaint is printed *)

Lemma complaint_says prog posix args ws d : complaint posix args ws d -> forall skipped,
  exists cs more, Forall2 stands cs ws /\
    fst (getopt_long_says prog letters longopts posix args skipped) = quiet cs ++ (BAD, Some (worded prog d)) :: more.
Proof.
  induction 1 as [cs us c r rest A K D|cs us c v w A L|text rest d W|f rest ws d P O _ IH|cs us rest ws d N A _ IH|cs us c v w rest ws d A L N _ IH
                 |cs us c v w rest ws d A L _ IH|text w rest ws d L _ IH]; intros sk.
  - rewrite says_group; [|now destruct cs|].
    2:{ apply alone_head with us; auto. right. destruct cs; [right; auto|left; discriminate]. }
    destruct (cluster_says_letters prog _ _ A) as (codes & F & ->). cbn [cluster_says].
    pose proof (takes_cases c) as T. destruct (takes_argument letters c) as [[|]|].
    + elim K. right. exists []. apply T.
    + elim K. left. apply T.
    + destruct (cluster_says prog letters r) as [l [p|]]; cbn [fst snd].
      * destruct rest as [|v rest].
        -- eexists codes, _. split; auto. cbn [fst]. rewrite <- app_assoc. reflexivity.
        -- destruct (getopt_long_says prog letters longopts posix rest sk) as [l' fs].
           eexists codes, _. split; auto. cbn [fst]. rewrite <- app_assoc. reflexivity.
      * destruct (getopt_long_says prog letters longopts posix rest sk) as [l' fs].
        eexists codes, _. split; auto. cbn [fst]. rewrite <- app_assoc. reflexivity.
  - rewrite says_group; [|now destruct cs|apply alone_head with us; auto; left; now apply known_with in L].
    destruct (cluster_says_letters prog _ _ A) as (codes & F & ->). cbn [cluster_says]. rewrite (letter_with_takes _ _ _ L).
    exists codes, []. split; auto. cbn [fst snd]. now rewrite app_nil_r.
  - rewrite says_double.
    2:{ assert (M : mistake posix (double_dashed text :: rest) []) by (now apply complaint_mistake with d; constructor).
        intros ->. inversion W as [name rest0 (E & _) N _|full name more value w (E & _) N _ _|value E]; try discriminate;
          symmetry in E; now destruct name. }
    destruct (getopt_long_says prog letters longopts posix rest sk) as [l' fs].
    exists [], l'. split; [constructor|]. cbn [fst]. now rewrite (long_says_bad _ _ _ W).
  - rewrite says_operand by assumption. subst posix. apply IH.
  - assert (D : forall r, cs <> "-"%byte :: r).
    { intros r ->. inversion A as [|? w0 ? ? L0 A0]; subst. assert (K : known_letter "-"%byte) by (left; eauto).
      now apply letter_not_dash in K. }
    rewrite says_group by assumption.
    destruct (cluster_says_plain prog _ _ A) as (codes & F & ->). destruct (IH sk) as (cs' & more & F' & E).
    destruct (getopt_long_says prog letters longopts posix rest sk) as [l' fs]. cbn [fst] in *. subst l'.
    exists (codes ++ cs'), more. split; [now apply Forall2_app|now rewrite quiet_app, app_assoc].
  - rewrite says_group; [|now destruct cs|apply alone_head with us; auto; left; now apply known_with in L].
    destruct (cluster_says_letters prog _ _ A) as (codes & F & ->). cbn [cluster_says]. rewrite (letter_with_takes _ _ _ L).
    destruct v as [|v0 v]; [easy|]. cbn [fst snd]. destruct (IH sk) as (cs' & more & F' & E).
    destruct (getopt_long_says prog letters longopts posix rest sk) as [l' fs]. cbn [fst] in *. subst l'.
    exists (codes ++ Short c (Some (v0 :: v)) :: cs'), more. split.
    + apply Forall2_app; auto. constructor; auto. now constructor.
    + rewrite quiet_app. now rewrite <- !app_assoc.
  - rewrite says_group; [|now destruct cs|apply alone_head with us; auto; left; now apply known_with in L].
    destruct (cluster_says_letters prog _ _ A) as (codes & F & ->). cbn [cluster_says]. rewrite (letter_with_takes _ _ _ L).
    cbn [fst snd]. destruct (IH sk) as (cs' & more & F' & E).
    destruct (getopt_long_says prog letters longopts posix rest sk) as [l' fs]. cbn [fst] in *. subst l'.
    exists (codes ++ Short c (Some v) :: cs'), more. split.
    + apply Forall2_app; auto. constructor; auto. now constructor.
    + rewrite quiet_app. now rewrite app_nil_r, <- app_assoc.
  - rewrite says_double by apply L. destruct (IH sk) as (cs' & more & F' & E).
    destruct (getopt_long_says prog letters longopts posix rest sk) as [l' fs]. cbn [fst] in *. subst l'.
    destruct (long_says_good prog _ _ L) as (c & Sc & ->).
    exists (c :: cs'), more. split; auto.
Qed.

(** ** The name of the program *)

Lemma goes_by_name argv0 name rest : goes_by argv0 name -> program_name (argv0 :: rest) = name.
Proof.
  intros (slashes & -> & F & H). cbn [program_name]. rewrite rev_app_distr.
  destruct H as [[A ->]|(n & c & -> & C)].
  - rewrite app_nil_r. simpl. rewrite <- (app_nil_r (rev name)), skip_slashes_unique; [reflexivity| |discriminate].
    now apply Forall_rev.
  - rewrite skip_slashes_unique.
    + rewrite rev_app_distr. cbn [rev app]. change (rev n ++ [c]) with (rev n ++ rev [c]). rewrite rev_involutive. reflexivity.
    + now apply Forall_rev.
    + intros x E. rewrite rev_app_distr in E. cbn in E. injection E as E _. auto.
Qed.

Lemma goes_by_exists argv0 : exists name, goes_by argv0 name.
Proof.
  destruct (skip_slashes_spec (rev argv0)) as (a & E & F & H).
  apply (f_equal (@rev _)) in E. rewrite rev_involutive, rev_app_distr in E.
  destruct (skip_slashes (rev argv0)) as [|c r] eqn:K.
  - cbn [rev app] in E. exists argv0, []. splits; auto; [now rewrite app_nil_r|]. left. split; auto. rewrite E. now apply Forall_rev.
  - exists (rev (c :: r)), (rev a). splits; auto; [now apply Forall_rev|]. right. exists (rev r), c. split; [reflexivity|].
    intros ->. now elim (H r).
Qed.

(** ** The texts *)

Lemma as_inline_iff argv : as_inline argv <-> inline_bin argv = true.
Proof. symmetry. apply inline_bin_called. Qed.

Lemma usage_text_iff argv t : usage_text argv t <-> t = usage_for (inline_bin argv).
Proof.
  split.
  - intros [A|A]; rewrite as_inline_iff in A; [now rewrite A|]. now apply not_true_is_false in A; rewrite A.
  - intros ->. destruct (inline_bin argv) eqn:E; constructor; rewrite as_inline_iff, E; [reflexivity|discriminate].
Qed.

Lemma help_text_iff argv t : help_text argv t <-> t = usage_for (inline_bin argv) ++ [eol] ++ help_for (inline_bin argv).
Proof.
  split.
  - intros [A|A]; rewrite as_inline_iff in A; [now rewrite A|]. now apply not_true_is_false in A; rewrite A.
  - intros ->. destruct (inline_bin argv) eqn:E; constructor; rewrite as_inline_iff, E; [reflexivity|discriminate].
Qed.

Definition parting_text (s : system) (argv : list str) (w : wish) : str :=
  match w with
  | Help => usage_for (inline_bin argv) ++ [eol] ++ help_for (inline_bin argv)
  | Version => m_package s ++ [eol]
  | _ => usage_for (inline_bin argv)
  end.

Lemma last_words_text s argv w t : last_words s argv w t -> parting w /\ t = parting_text s argv w.
Proof.
  intros [t' H| |t' H]; cbn [parting_text]; unfold parting.
  - apply help_text_iff in H. tauto.
  - tauto.
  - apply usage_text_iff in H. tauto.
Qed.

Lemma last_words_exist s argv w : parting w -> last_words s argv w (parting_text s argv w).
Proof.
  intros [->|[->| ->]]; constructor; [now apply help_text_iff|now apply usage_text_iff].
Qed.

Lemma parting_text_some s argv w : exists c r, parting_text s argv w = c :: r.
Proof.
  assert (U : exists c r, usage_for (inline_bin argv) = c :: r) by (destruct (inline_bin argv); eexists; eexists; reflexivity).
  destruct U as (c & r & U). unfold parting_text. rewrite U. destruct w; try (eexists; eexists; reflexivity).
  destruct (m_package s); eexists; eexists; reflexivity.
Qed.

(** ** The outcome *)

Definition read_options (s : system) (argv : list str) : talk options_t :=
  parse_options_says (m_platform s) (e_getenv (m_env s)) (m_package s) argv.

Lemma print_out_some c r : print_out (c :: r) = say Stdout (c :: r).
Proof. reflexivity. Qed.

Lemma code_parting pkg c w o : stands c w -> parting w -> exists t,
  option_code_says pkg c o = (fst (print_out t), Exit EXIT_SUCCESS) /\ t = farewell pkg w o.
Proof.
  intros St P. destruct St as [c w L|c v w L| | |]; [destruct L|destruct L| | |]; try (destruct P as [P|[P|P]]; discriminate P);
    eexists; (split; [|reflexivity]);
    match goal with |- option_code_says _ (Short ?c _) _ = _ => cbn [option_code_says]; change (existsb (beq c) (bs "hfLnrsvV?")) with true; cbv iota
                  | |- _ => cbn [option_code_says coded] end;
    unfold aloud;
    match goal with |- context [fst ?m] => change m with (farewell pkg Help o, @Exit options_t EXIT_SUCCESS) ||
       change m with (farewell pkg Version o, @Exit options_t EXIT_SUCCESS) || change m with (farewell pkg Usage o, @Exit options_t EXIT_SUCCESS) end;
    cbn [fst snd]; unfold print_out; destruct (farewell pkg _ o); reflexivity.
Qed.

Lemma farewell_text s argv before w : Forall (fun w => ~ parting w) before -> parting w ->
  farewell (m_package s) w (fold_left (fun o w => grant w o) before (options_start (m_platform s) (e_getenv (m_env s)) (hd_error argv))) =
  parting_text s argv w.
Proof.
  intros N P.
  pose proof (granted_fold _ _ _ (granted_start (m_platform s) (e_getenv (m_env s)) (hd_error argv)) before N) as G. fold (inline_bin argv) in G.
  unfold farewell, usage, help, parting_text. rewrite (g_inline_bin _ _ _ _ G). now destruct w.
Qed.

Lemma codes_parting s argv before w after more cs files :
  getopt_long_says (program_name argv) letters longopts (posix_env s) (tl argv) [] = (quiet cs ++ more, files) ->
  Forall2 stands cs (before ++ w :: after) -> stays before -> parting w ->
  read_options s argv = ([(Stdout, parting_text s argv w)], Exit EXIT_SUCCESS).
Proof.
  intros E F N P. unfold read_options, parse_options_says. fold (posixly (e_getenv (m_env s))).
  change (posixly (e_getenv (m_env s))) with (posix_env s). rewrite E.
  apply Forall2_app_inv_r in F. destruct F as (c1 & c2 & F1 & F2 & ->). inversion F2 as [|c w' c3 ws' St F3]; subst.
  rewrite quiet_app, <- app_assoc, (option_codes_granted _ _ _ F1 N). cbn [quiet map app option_codes_says]. rewrite tbind_done.
  match goal with |- context [option_code_says ?pkg c ?o] => destruct (code_parting pkg c w o St P) as (t & T & ->) end. rewrite T.
  rewrite (farewell_text _ _ _ _ N P).
  destruct (parting_text_some s argv w) as (b & r & X). rewrite X. reflexivity.
Qed.

Lemma asks_parting s argv before w after fs : asks (posix_env s) (tl argv) (before ++ w :: after) fs -> stays before -> parting w ->
  read_options s argv = ([(Stdout, parting_text s argv w)], Exit EXIT_SUCCESS).
Proof.
  intros A N P. destruct (asks_says (program_name argv) _ _ _ _ A []) as (cs & F & E); [auto|].
  rewrite <- (app_nil_r (quiet cs)) in E. eapply codes_parting; eauto.
Qed.

Lemma mistake_parting s argv before w after : mistake (posix_env s) (tl argv) (before ++ w :: after) -> stays before -> parting w ->
  read_options s argv = ([(Stdout, parting_text s argv w)], Exit EXIT_SUCCESS).
Proof.
  intros M N P. destruct (mistake_complaint _ _ _ M) as (d & C).
  destruct (complaint_says (program_name argv) _ _ _ _ C []) as (cs & more & F & E).
  destruct (getopt_long_says (program_name argv) letters longopts (posix_env s) (tl argv) []) as [l files] eqn:X. cbn [fst] in E. subst l.
  eapply codes_parting; eauto.
Qed.

Lemma complaint_outcome s argv ws d : complaint (posix_env s) (tl argv) ws d -> stays ws ->
  read_options s argv = (on_stderr (worded (program_name argv) d) ++ [(Stdout, usage_for (inline_bin argv))], Exit EXIT_SUCCESS).
Proof.
  intros C N. destruct (complaint_says (program_name argv) _ _ _ _ C []) as (cs & more & F & E).
  unfold read_options, parse_options_says. fold (posixly (e_getenv (m_env s))). change (posixly (e_getenv (m_env s))) with (posix_env s).
  destruct (getopt_long_says (program_name argv) letters longopts (posix_env s) (tl argv) []) as [l files]. cbn [fst] in E. subst l.
  rewrite (option_codes_granted _ _ _ F N). cbn [option_codes_says].
  match goal with |- context [option_code_says ?pkg BAD ?o] =>
    destruct (code_parting pkg BAD Usage o) as (t & T & ->); [repeat constructor|unfold parting; tauto|] end. rewrite T.
  rewrite (farewell_text _ _ _ Usage N) by (unfold parting; tauto).
  destruct (parting_text_some s argv Usage) as (b & r & X). cbn [parting_text] in X. cbn [parting_text]. rewrite X. reflexivity.
Qed.

Lemma options_outcome s argv ws fs : asks (posix_env s) (tl argv) ws fs -> stays ws ->
  exists o, granted (inline_bin argv) (e_getenv (m_env s) (bs "DETOX_SEQUENCE")) ws o /\ o_platform o = m_platform s /\
    read_options s argv =
      (if o_list_sequences o then ([], Ok o)
       else match fs with
            | [] => if o_is_inline_mode o then ([], Ok o) else ([(Stdout, usage_for (inline_bin argv))], Exit EXIT_FAILURE)
            | _ => ([], Ok o)
            end) /\
    (o_list_sequences o = true -> o_files o = None) /\
    (o_list_sequences o = false -> exists l, o_files o = Some l /\ good l /\ items (Some l) = fs /\ fl_ptr l = 0).
Proof.
  intros A N. destruct (options_read (m_platform s) (e_getenv (m_env s)) (m_package s) argv ws fs A N) as (o & G & Pf & E & F1 & F2).
  exists o. split; [exact G|]. split; [exact Pf|]. split; [|split; [exact F1|exact F2]].
  destruct (parse_options_getopt (m_platform s) (e_getenv (m_env s)) (m_package s) argv) as [t r] eqn:Q.
  apply (options_silent _ _ _ _ _ _ _ _ A N) in Q. unfold read_options. rewrite Q.
  destruct (o_list_sequences o); [now injection E as -> ->|].
  destruct fs; [|now injection E as -> ->]. destruct (o_is_inline_mode o); injection E as -> ->; [reflexivity|].
  destruct (inline_bin argv); reflexivity.
Qed.

Lemma dismissed_says s argv said n : dismissed s argv said n -> read_options s argv = (said, Exit n).
Proof.
  intros [before w after fs t H N L|ws d argv0 name t C N Hd G U|ws A N NL NI NB].
  - apply last_words_text in L. destruct L as [P ->]. destruct H as [A|M]; [eapply asks_parting; eauto|eapply mistake_parting; eauto].
  - rewrite (complaint_outcome _ _ _ _ C N). apply usage_text_iff in U. subst t.
    destruct argv as [|a argv]; [discriminate|]. injection Hd as ->. now rewrite (goes_by_name _ _ _ G).
  - destruct (options_outcome _ _ _ _ A N) as (o & G & _ & E & _). rewrite E.
    rewrite <- (g_list _ _ _ _ G) in NL. apply not_true_is_false in NL. rewrite NL.
    rewrite as_inline_iff in NB. apply not_true_is_false in NB. pose proof (g_inline _ _ _ _ G) as Gi. rewrite NB in Gi.
    destruct (o_is_inline_mode o); [|now rewrite NB]. destruct (proj1 Gi eq_refl); [discriminate|now elim NI].
Qed.

(** Every command line is dismissed, or read in silence. *)
Lemma dismissed_or_read s argv :
  (exists said n, dismissed s argv said n) \/
  (exists ws fs, asks (posix_env s) (tl argv) ws fs /\ stays ws /\ (In List_sequences ws \/ fs <> [] \/ In Inline_mode ws \/ as_inline argv)).
Proof.
  destruct (asks_or_mistake (posix_env s) (length (tl argv)) (tl argv) (le_n _)) as [(ws & fs & A)|(ws & M)];
    destruct (parting_split ws) as [N|(b & w & a & -> & N & P)].
  - assert (D : forall w, (w = List_sequences \/ w = Inline_mode) -> In w ws \/ ~ In w ws).
    { intros w Hw. destruct (existsb (fun x => match x, w with List_sequences, List_sequences | Inline_mode, Inline_mode => true | _, _ => false end) ws) eqn:E.
      - left. apply existsb_exists in E. destruct E as (x & I & E). destruct x, w; try discriminate; auto.
      - right. intros I. assert (X : existsb (fun x => match x, w with List_sequences, List_sequences | Inline_mode, Inline_mode => true | _, _ => false end) ws = true).
        { apply existsb_exists. exists w. split; auto. destruct Hw; subst; reflexivity. }
        congruence. }
    destruct (D List_sequences) as [I|NL]; [auto|right; exists ws, fs; splits; auto|].
    destruct fs as [|f fs]; [|right; exists ws, (f :: fs); splits; auto; right; left; discriminate].
    destruct (D Inline_mode) as [I|NI]; [auto|right; exists ws, []; splits; auto|].
    destruct (inline_bin argv) eqn:B.
    + right. exists ws, []. splits; auto. right. right. right. now apply as_inline_iff.
    + left. do 2 eexists. eapply dm_idle; eauto. rewrite as_inline_iff. congruence.
  - left. do 2 eexists. eapply dm_parting; eauto. now apply last_words_exist.
  - destruct (mistake_complaint _ _ _ M) as (d & C). left. destruct argv as [|a r].
    { cbn [tl] in M. inversion M. }
    destruct (goes_by_exists a) as (name & G). do 2 eexists. eapply dm_wrong; eauto; [reflexivity|]. now apply usage_text_iff.
  - left. do 2 eexists. eapply dm_parting; eauto. now apply last_words_exist.
Unshelve. all: exact [].
Qed.
