(** * Proofs about whole runs *)

From Verif Require Import Base BaseFacts Table ParseTable ParseTableProofs CleanSpec Filter Spoof SequenceSpec SequenceProofs Filelist FilelistProofs Prog ProgFacts Warnings WarningsProofs File FS FSProofs FileSpec FileProofs WalkProofs
  Inline InlineProofs ConfigParse ConfigSpec ConfigLoad ConfigLoadSpec ConfigLoadProofs Options OptionsSpec OptionsProofs Startup Main StartProofs StartOptions MainSpec.

Local Open Scope nat_scope.

(** ** Programs with certain calls only *)

Lemma only_bind P {A B} (p : prog A) (f : A -> prog B) : only P p -> (forall a, only P (f a)) -> only P (pbind p f).
Proof. induction p as [a|w|c k IH]; simpl; auto. intros [H K] F. split; auto. Qed.

Lemma only_lift P {A} (r : res A) : only P (lift r).
Proof. destruct r; simpl; auto. Qed.

Lemma only_sys (P : call -> Prop) c : P c -> only P (sys c).
Proof. simpl. auto. Qed.

Lemma only_print (P : call -> Prop) out t : P (Print out t) -> only P (print out t).
Proof. simpl. auto. Qed.

Lemma only_talking (P : call -> Prop) {A} (m : talk A) : Forall (fun x => P (Print (fst x) (snd x))) (fst m) -> only P (talking m).
Proof.
  intros F. unfold talking. induction F as [|[a b] l H F IH]; [apply only_lift|]. cbn [told only]. split; auto.
Qed.

Lemma only_told (P : call -> Prop) {A} l (p : prog A) :
  Forall (fun x => P (Print (fst x) (snd x))) l -> only P p -> only P (told l p).
Proof. intros F O. induction F as [|[a b] l H F IH]; [exact O|]. cbn [told only]. split; auto. Qed.

Lemma only_weaken (P Q : call -> Prop) {A} (p : prog A) : (forall c, P c -> Q c) -> only P p -> only Q p.
Proof. intros H. induction p as [a|w|c k IH]; simpl; auto. intros [X Y]. split; auto. Qed.

Lemma only_trace (P : call -> Prop) {A} (p : prog A) tr p' : only P p -> trace_of p tr p' ->
  Forall (fun e => match e with Ev c _ => P c end) tr /\ only P p'.
Proof.
  unfold trace_of. revert tr. induction p as [a|w|c k IH]; intros tr O R; simpl in R.
  - destruct R as [(-> & _ & ->)|[]]. auto.
  - destruct R as [(-> & _ & ->)|[]]. auto.
  - destruct R as [(-> & _ & ->)|(s0 & r & s1 & t & _ & _ & -> & R)]; [auto|]. destruct O as [O1 O2].
    destruct s1. destruct (IH r t (O2 r) R). auto.
Qed.

Lemma only_no_rename {A} (p : prog A) tr p' : only no_rename p -> trace_of p tr p' -> ~ Exists is_rename tr.
Proof.
  intros O T X. destruct (only_trace _ _ _ _ O T) as [F _]. apply Exists_exists in X. destruct X as ([c r] & I & R).
  rewrite Forall_forall in F. specialize (F _ I). destruct c; simpl in *; auto.
Qed.

(** ** Inline mode only reads and prints *)

Lemma inline_loop_only o : forall fuel input, only reads_or_prints (inline_loop fuel o input).
Proof.
  induction fuel as [|fuel IH]; intros input; [exact I|]. cbn [inline_loop].
  apply only_bind; [apply only_lift|]. intros [p|]; [|exact I].
  apply only_bind; [destruct (pc_warning p); simpl; auto|]. intros _.
  apply only_bind; [apply only_talking, Forall_forall; simpl; auto|]. intros cleaned.
  apply only_bind; [simpl; auto|]. intros _.
  apply only_bind; [destruct (pc_newline p); simpl; auto|]. intros _. apply IH.
Qed.

Lemma parse_inline_only f o : only reads_or_prints (parse_inline f o).
Proof.
  unfold parse_inline. apply only_bind; [simpl; auto|]. intros [b|m]; [apply inline_loop_only|].
  destruct f; simpl; auto.
Qed.

Lemma inline_arguments_only o files : only reads_or_prints (inline_arguments o files).
Proof.
  induction files as [|f files IH]; [exact I|]. cbn [inline_arguments].
  apply only_bind; [simpl; auto|]. intros st. apply only_bind; [|intros; exact IH].
  destruct st as [st|m]; [|simpl; auto]. destruct (isdir st); [simpl; auto|]. apply parse_inline_only.
Qed.

(** ** The list of files *)

Lemma all_files_S n l :
  all_files (S n) l =
  do g <- filelist_get l;
  match g with (None, _) => Ok [] | (Some f, l') => do rest <- all_files n l'; Ok (f :: rest) end.
Proof. reflexivity. Qed.

Lemma skipn_nth {A} k : forall (l : list A) x, nth_error l k = Some x -> skipn k l = x :: skipn (S k) l.
Proof. induction k as [|k IH]; intros [|y l] x E; simpl in *; try discriminate; [congruence|]. now apply IH. Qed.

Lemma all_files_good fs : forall m k l', m = length fs - k ->
  ogood l' -> items l' = fs -> cursor l' = k -> k <= length fs -> all_files (S m) l' = Ok (skipn k fs).
Proof.
  induction m as [|m IH]; intros k l' Em G' I' C' K; rewrite all_files_S;
    destruct (get_good l' G') as (r & l2 & Eg & G2 & I2 & R2 & C2); rewrite Eg; cbn [bind]; rewrite R2, I', C'.
  - rewrite (proj2 (nth_error_None _ _)) by lia. now rewrite skipn_all2 by lia.
  - destruct (nth_error fs k) as [f|] eqn:Nk; [|apply nth_error_None in Nk; lia].
    rewrite (IH (S k)); [| lia | assumption | congruence | | lia].
    + cbn [bind]. now rewrite (skipn_nth k fs f Nk).
    + rewrite C2, I', C'. destruct (Nat.eqb_spec k (length fs)); lia.
Qed.

Lemma all_files_items l : good l -> fl_ptr l = 0 -> all_files (S (fl_count l)) (Some l) = Ok (items (Some l)).
Proof.
  intros G Z. pose proof (good_length l G) as L.
  rewrite (all_files_good (items (Some l)) (fl_count l) 0 (Some l)); auto; lia.
Qed.

Lemma put_files_usable files : forall l, usable_list (Some l) -> forall l', put_files l files = Ok l' -> usable_list (Some l').
Proof.
  induction files as [|f files IH]; intros l U l' E; cbn [put_files] in E; [now injection E as <-|].
  destruct (filelist_put (Some l) f) as [l1| |] eqn:P; try discriminate. cbn [bind] in E.
  apply (IH l1); auto. eapply usable_put; eauto.
Qed.

Lemma ignore_list_ok c : exists ign, ignore_list c = Ok ign /\ usable_list ign /\ cursor ign = 0 /\
  items ign = match cf_ignore c with Some l => l | None => [] end.
Proof.
  unfold ignore_list. destruct (cf_ignore c) as [l|].
  - destruct (put_files_ok l) as (fl & E & G & It & P). rewrite E. exists (Some fl). splits; auto.
    eapply put_files_usable; [|exact E]. constructor.
  - exists None. splits; auto. constructor.
Qed.

(** ** The shape of every run *)

Definition work (fuel : nat) (o : options_t) (fs : list str) (ign : option filelist) : prog N :=
  if negb (o_is_inline_mode o) then let! _ := process_arguments fuel o fs ign in Ret EXIT_SUCCESS
  else match fs with
       | [] => let! _ := parse_inline None o in Ret EXIT_SUCCESS
       | _ => let! _ := inline_arguments o fs in Ret EXIT_SUCCESS
       end.

Lemma talking_bind {A B} (m : talk A) (f : A -> prog B) :
  pbind (talking m) f = told (fst m) (match snd m with Ok a => f a | UB w => Stop (StopUB w) | Exit n => Stop (StopExit n) end).
Proof. unfold talking. rewrite told_bind. now destruct (snd m). Qed.

(** A program that prints and stops. *)
Inductive ends {A} : prog A -> stop -> Prop :=
| ends_stop w : ends (Stop w) w
| ends_print out t k w : ends (k tt) w -> ends (Call (Print out t) k) w.

Lemma ends_told {A} l (p : prog A) w : ends p w -> ends (told l p) w.
Proof. intros E. induction l as [|[out text] l IH]; [exact E|]. now constructor. Qed.

(** Talking that does not succeed. *)
Lemma ends_talking {A B} (m : talk A) (f : A -> prog B) : (forall a, snd m <> Ok a) -> exists w, ends (pbind (talking m) f) w.
Proof.
  intros N. rewrite talking_bind. destruct (snd m) as [a|u|n]; [now elim (N a)|eexists; apply ends_told; constructor..].
Qed.

Lemma ends_only {A} (p : prog A) w : ends p w -> only is_print p.
Proof. induction 1; simpl; auto. split; auto. intros []. exact IHends. Qed.

Lemma posix_env_posixly s : posix_env s = posixly (e_getenv (m_env s)).
Proof. reflexivity. Qed.

Lemma inline_bin_called argv : inline_bin argv = true <-> exists a r, argv = a :: r /\ called a (bs "inline-detox").
Proof.
  destruct argv as [|a r].
  - split; [discriminate|]. intros (? & ? & ? & _). discriminate.
  - rewrite inline_bin_iff. split; [eauto|]. intros (? & ? & E & C). now injection E as -> ->.
Qed.

Definition main_rest (fuel : nat) (system : system) (o : options_t) (c : config_t) : prog N :=
  let env := m_env system in
  let! ign := lift (ignore_list c) in
  let chosen := sequence_choose_default (cf_sequences c) (o_sequence_name o) in
  if o_list_sequences o then
    let! text := lift (dump_config_file c (chosen_position (cf_sequences c) (o_sequence_name o)) (0 <? o_verbose o)%N) in
    let! _ := print Stdout text in
    Stop (StopExit EXIT_SUCCESS)
  else
    match chosen with
    | None =>
      let! _ := print Stderr (bs "detox: no sequence to work with" ++ [eol]) in
      Stop (StopExit EXIT_FAILURE)
    | Some s =>
      let! s := talking (sequence_review_says (e_datadir env) (table_at_says system) s) in
      let o := with_sequence (Some s) ign o in
      let! files := lift (all_files (S (filelist_count (o_files o))) (o_files o)) in
      if negb (o_is_inline_mode o) then
        let! _ := process_arguments fuel o files ign in Ret EXIT_SUCCESS
      else if 0 <? filelist_count (o_files o) then
        let! _ := inline_arguments o files in Ret EXIT_SUCCESS
      else
        let! _ := parse_inline None o in Ret EXIT_SUCCESS
    end.

Lemma main_eq fuel s argv :
  main fuel s argv =
  pbind (talking (parse_options_says (m_platform s) (e_getenv (m_env s)) (m_package s) argv)) (fun o =>
  pbind (talking (config_file_load_says (m_env s) (o_check_config_file o))) (fun c => main_rest fuel s o c)).
Proof. reflexivity. Qed.

Lemma table_at_found s path : table_found s path (table_at s path).
Proof.
  unfold table_at. destruct (e_files (m_env s) path) as [| |bytes] eqn:E.
  - now constructor.
  - destruct (parse_table_total (m_locale s) []) as [t P]. rewrite P. now apply tf_unreadable.
  - destruct (parse_table_total (m_locale s) bytes) as [t P]. rewrite P. now apply tf_read with bytes.
Qed.

(** The options, from what is known about the silent version. *)
Lemma options_say pf getenv pkg argv t r : parse_options_getopt pf getenv pkg argv = (t, r) ->
  snd (parse_options_says pf getenv pkg argv) = r.
Proof. intros E. destruct (parse_options_mirrors pf getenv pkg argv) as [_ M]. rewrite same_res, E in M. exact M. Qed.

(** What every run is: it prints and stops, or it prints and does the work. *)
Lemma main_cases_all s argv :
  (exists w, forall fuel, ends (main fuel s argv) w) \/
  (exists ws fs o c said, started s argv ws fs o c /\ prelude s ws c said /\
     forall fuel, main fuel s argv = told said (work fuel o fs (o_files_to_ignore o))).
Proof.
  assert (X : forall n, snd (parse_options_says (m_platform s) (e_getenv (m_env s)) (m_package s) argv) = Exit n ->
                        exists w, forall fuel, ends (main fuel s argv) w).
  { intros n E. eexists. intros fuel. rewrite main_eq, talking_bind, E. apply ends_told. constructor. }
  destruct (asks_or_mistake (posix_env s) (length (tl argv)) (tl argv) (le_n _)) as [(ws & fs & A)|(ws & M)].
  2:{ left. destruct (parting_split ws) as [N|(b & w & a & -> & N & P)].
      - eapply X, options_say, options_mistake; eauto.
      - eapply X, options_say, options_mistake_parting; eauto. }
  destruct (parting_split ws) as [N|(b & w & a & -> & N & P)].
  2:{ left. eapply X, options_say, options_parting; eauto. }
  destruct (options_read (m_platform s) (e_getenv (m_env s)) (m_package s) argv ws fs A N) as (o & G & Pf & E & F1 & F2).
  assert (R : parse_options_getopt (m_platform s) (e_getenv (m_env s)) (m_package s) argv = ([], Ok o) /\
              (o_list_sequences o = false -> fs = [] -> o_is_inline_mode o = true) \/
              exists t n, parse_options_getopt (m_platform s) (e_getenv (m_env s)) (m_package s) argv = (t, Exit n)).
  { rewrite E. destruct (o_list_sequences o); [left; split; auto; discriminate|]. destruct fs; [|left; split; auto; discriminate].
    destruct (o_is_inline_mode o); eauto. }
  destruct R as [(R & Fi)|(t & n & R)].
  2:{ left. eapply X, options_say, R. }
  apply (options_silent _ _ _ _ _ _ _ _ A N) in R. cbn [print_out done quietly fst] in R.
  assert (ME : forall fuel, main fuel s argv =
            pbind (talking (config_file_load_says (m_env s) (o_check_config_file o))) (fun c => main_rest fuel s o c))
    by (intros fuel; rewrite main_eq, R; reflexivity).
  clear X. destruct (config_file_load_mirrors (m_env s) (o_check_config_file o)) as [M1 M2].
  rewrite same_res in M2.
  destruct (config_file_load_says (m_env s) (o_check_config_file o)) as [said1 [c|w|n]] eqn:EL.
  2:{ left. eexists. intros fuel. rewrite ME, talking_bind. apply ends_told. constructor. }
  2:{ left. eexists. intros fuel. rewrite ME, talking_bind. apply ends_told. constructor. }
  cbn [fst snd] in M1, M2.
  destruct (ignore_list_ok c) as (ign & IL & Ui & Ci & Ii).
  assert (ME' : forall fuel, main fuel s argv = told said1 (main_rest fuel s o c))
    by (intros fuel; rewrite ME, talking_bind; reflexivity).
  clear ME. rename ME' into ME.
  unfold main_rest in ME. rewrite IL in ME. cbn [lift pbind] in ME.
  destruct (o_list_sequences o) eqn:L.
  { left. destruct (dump_config_file _ _ _); cbn [lift pbind] in ME; eexists; intros fuel; rewrite ME; apply ends_told; repeat constructor. }
  destruct (sequence_choose_default (cf_sequences c) (o_sequence_name o)) as [s0|] eqn:Ch.
  2:{ left. eexists. intros fuel. rewrite ME. apply ends_told. repeat constructor. }
  destruct (proj1 (quiet_like_eq _ _) (review_like s s0)) as [Rv1 Rv].
  destruct (sequence_review_says (e_datadir (m_env s)) (table_at_says s) s0) as [said2 [s1|w|n]] eqn:Rs; cbn [fst snd] in Rv1, Rv.
  2:{ left. eexists. intros fuel. rewrite ME. apply ends_told. rewrite talking_bind. apply ends_told. constructor. }
  2:{ left. eexists. intros fuel. rewrite ME. apply ends_told. rewrite talking_bind. apply ends_told. constructor. }
  right. symmetry in Rv. destruct (F2 eq_refl) as (l & Ef & Gl & Il & Pl).
  exists ws, fs, (with_sequence (Some s1) ign o), c, (said1 ++ said2). splits.
  - constructor; auto.
    + rewrite <- (g_list _ _ _ _ G). congruence.
    + apply (g_dry_run _ _ _ _ G).
    + apply (g_recurse _ _ _ _ G).
    + apply (g_special _ _ _ _ G).
    + apply (g_verbose _ _ _ _ G).
    + cbn [with_sequence o_is_inline_mode]. rewrite (g_inline _ _ _ _ G), inline_bin_called. reflexivity.
    + exists (o_check_config_file o), (fst (config_file_load (m_env s) (o_check_config_file o))). split; [apply (g_config _ _ _ _ G)|].
      rewrite M2. apply surjective_pairing.
    + exists (o_sequence_name o), s0, s1. splits; [apply (g_sequence _ _ _ _ G)|auto| |auto].
      exists (table_at s). split; [apply table_at_found|exact Rv].
  - exists (o_check_config_file o), (o_sequence_name o), s0, s1, said1, said2. splits; auto.
    + apply (g_config _ _ _ _ G).
    + apply (g_sequence _ _ _ _ G).
  - intros fuel. rewrite ME, told_app, talking_bind. cbn [fst snd].
    cbn [with_sequence o_files o_files_to_ignore o_is_inline_mode]. rewrite Ef. cbn [filelist_count].
    rewrite (all_files_items l Gl Pl), Il. cbn [lift pbind]. do 2 f_equal. unfold work.
    cbn [with_sequence o_is_inline_mode]. destruct (o_is_inline_mode o); cbn [negb]; [|reflexivity].
    rewrite <- (good_length l Gl), Il. destruct fs; reflexivity.
Qed.

Lemma main_cases fuel s argv :
  (exists w, ends (main fuel s argv) w) \/
  (exists ws fs o c said, started s argv ws fs o c /\
     main fuel s argv = told said (work fuel o fs (o_files_to_ignore o))).
Proof.
  destruct (main_cases_all s argv) as [(w & E)|(ws & fs & o & c & said & St & _ & E)].
  - left. exists w. apply E.
  - right. exists ws, fs, o, c, said. auto.
Qed.

(** ** From the work to the whole program *)

Lemma runs_bind_inv {S A B} (step : S -> forall c, answer c -> S -> Prop) (interference : S -> S -> Prop)
    (p : prog A) (f : A -> prog B) s tr s' p' :
  runs step interference (pbind p f) s tr s' p' ->
  (exists q, runs step interference p s tr s' q /\ p' = pbind q f) \/
  (exists tr1 tr2 a s1, tr = tr1 ++ tr2 /\ runs step interference p s tr1 s1 (Ret a) /\ runs step interference (f a) s1 tr2 s' p').
Proof.
  revert s tr. induction p as [a|w|c k IH]; intros s tr R; simpl in R.
  - right. exists [], tr, a, s. splits; auto. apply runs_here.
  - left. destruct R as [(-> & -> & ->)|[]]. exists (Stop w). split; [apply runs_here|reflexivity].
  - destruct R as [(-> & -> & ->)|(s0 & r & s1 & t & Hi & St & -> & R)].
    + left. exists (Call c k). split; [apply runs_here|reflexivity].
    + destruct (IH r s1 t R) as [(q & Rq & ->)|(t1 & t2 & a & s2 & -> & R1 & R2)].
      * left. exists q. split; auto. eapply runs_call; eauto.
      * right. exists (Ev c r :: t1), t2, a, s2. splits; auto. eapply runs_call; eauto.
Qed.

(** The part of a run that does the work: it has not begun, or the prints are over. *)
Lemma runs_told {S A} (step : S -> forall c, answer c -> S -> Prop) (interference : S -> S -> Prop) l (p : prog A) : forall s tr s' p',
  runs step interference (told l p) s tr s' p' ->
  (exists l1 l2, l = l1 ++ l2 /\ l2 <> [] /\ tr = map heard l1 /\ runs step interference (told l1 (Ret tt)) s tr s' (Ret tt) /\ p' = told l2 p) \/
  (exists tr2 s1, tr = map heard l ++ tr2 /\ runs step interference (told l (Ret tt)) s (map heard l) s1 (Ret tt) /\
     runs step interference p s1 tr2 s' p').
Proof.
  induction l as [|[out text] l IH]; intros s tr s' p' R.
  - right. exists tr, s. splits; auto. apply runs_here.
  - cbn [told runs] in R. destruct R as [(-> & -> & ->)|(s0 & [] & s1 & t & Hi & St & -> & R)].
    + left. exists [], ((out, text) :: l). splits; try easy. apply runs_here.
    + destruct (IH _ _ _ _ R) as [(l1 & l2 & -> & N & -> & R1 & ->)|(tr2 & s2 & -> & R1 & R2)].
      * left. exists ((out, text) :: l1), l2. splits; auto. cbn [told map]. eapply (runs_call _ _ _ (fun _ => told l1 (Ret tt))); eauto.
      * right. exists tr2, s2. splits; auto. cbn [told map]. eapply (runs_call _ _ _ (fun _ => told l (Ret tt))); eauto.
Qed.

Lemma heard_prints l : Forall (fun e => match e with Ev c _ => is_print c end) (map heard l).
Proof. apply Forall_map, Forall_forall. intros x _. exact I. Qed.

(** A run of the whole program that issues anything but prints does the work. *)
Lemma runs_work {S} (step : S -> forall c, answer c -> S -> Prop) (interference : S -> S -> Prop) fuel sy argv s tr s' p' :
  runs step interference (main fuel sy argv) s tr s' p' ->
  (Forall (fun e => match e with Ev c _ => is_print c end) tr /\ forall c k, p' = Call c k -> is_print c) \/
  (exists ws fs o c said tr2 s1, started sy argv ws fs o c /\ tr = map heard said ++ tr2 /\
     runs step interference (told said (Ret tt)) s (map heard said) s1 (Ret tt) /\
     runs step interference (work fuel o fs (o_files_to_ignore o)) s1 tr2 s' p').
Proof.
  intros R. destruct (main_cases fuel sy argv) as [(w & E)|(ws & fs & o & c & said & St & E)].
  - left. apply ends_only in E. apply runs_trace in R. destruct (only_trace _ _ _ _ E R) as [F O]. split; auto.
    intros c k ->. apply O.
  - rewrite E in R. apply runs_told in R. destruct R as [(l1 & [|[out text] l2] & -> & N & -> & _ & ->)|(tr2 & s1 & -> & R1 & R2)].
    + now elim N.
    + left. split; [apply heard_prints|]. intros c0 k X. cbn [told] in X. now injection X as <- _.
    + right. exists ws, fs, o, c, said, tr2, s1. splits; auto.
Qed.

(** The files part of the work. *)
Lemma work_files {S} (step : S -> forall c, answer c -> S -> Prop) (interference : S -> S -> Prop) fuel o fs ign s tr s' p' :
  o_is_inline_mode o = false -> runs step interference (work fuel o fs ign) s tr s' p' ->
  exists q, runs step interference (process_arguments fuel o fs ign) s tr s' q /\
    ((exists a, q = Ret a) /\ p' = Ret EXIT_SUCCESS \/ p' = pbind q (fun _ => Ret EXIT_SUCCESS)).
Proof.
  intros I R. unfold work in R. rewrite I in R. cbn [negb] in R. apply runs_bind_inv in R.
  destruct R as [(q & R & ->)|(t1 & t2 & a & s1 & -> & R1 & R2)]; [eauto|].
  simpl in R2. destruct R2 as [(-> & -> & ->)|[]]. rewrite app_nil_r. exists (Ret a). split; auto.
Qed.

Lemma work_inline fuel o fs ign : o_is_inline_mode o = true -> only reads_or_prints (work fuel o fs ign).
Proof.
  intros I. unfold work. rewrite I. cbn [negb]. destruct fs; apply only_bind; try (intros; exact Logic.I).
  - apply parse_inline_only.
  - apply inline_arguments_only.
Qed.

Lemma prints_no_rename tr : Forall (fun e => match e with Ev c _ => is_print c end) tr -> ~ Exists is_rename tr.
Proof.
  intros F X. apply Exists_exists in X. destruct X as ([c r] & I & R). rewrite Forall_forall in F.
  specialize (F _ I). destruct c; simpl in *; auto.
Qed.

(** A rename requested by the program is requested by the work on files. *)
Lemma main_rename {S} (step : S -> forall c, answer c -> S -> Prop) (interference : S -> S -> Prop) fuel sy argv s tr s' old new k :
  runs step interference (main fuel sy argv) s tr s' (Call (Rename old new) k) ->
  exists ws fs o c pre tr2 s1 k', started sy argv ws fs o c /\ o_is_inline_mode o = false /\ tr = pre ++ tr2 /\
    Forall (fun e => match e with Ev c _ => is_print c end) pre /\
    runs step interference (process_arguments fuel o fs (o_files_to_ignore o)) s1 tr2 s' (Call (Rename old new) k').
Proof.
  intros R. apply runs_work in R. destruct R as [(_ & X)|(ws & fs & o & c & said & tr2 & s1 & St & -> & _ & R)].
  - elim (X _ _ eq_refl).
  - destruct (o_is_inline_mode o) eqn:Im.
    + apply runs_trace in R. destruct (only_trace _ _ _ _ (work_inline fuel o fs (o_files_to_ignore o) Im) R) as [_ [[] _]].
    + destruct (work_files _ _ _ _ _ _ _ _ _ _ Im R) as (q & Rq & [(_ & X)|X]); [discriminate|].
      destruct q as [a|w|c1 k1]; try discriminate. cbn [pbind] in X.
      pose proof (f_equal (fun p => match p with Call c _ => c | _ => Print Stdout [] end) X) as X1. cbn in X1. subst c1.
      exists ws, fs, o, c, (map heard said), tr2, s1, k1. splits; auto. apply heard_prints.
Qed.

Lemma exists_rename_pending {S A} (step : S -> forall c, answer c -> S -> Prop) (interference : S -> S -> Prop) (p : prog A) s tr s' p' :
  runs step interference p s tr s' p' -> Exists is_rename tr ->
  exists t1 s1 old new k, runs step interference p s t1 s1 (Call (Rename old new) k).
Proof.
  intros R X. apply Exists_exists in X. destruct X as ([c r] & I & H). destruct c; try elim H.
  apply in_split in I. destruct I as (t1 & t2 & ->). apply runs_split in R.
  destruct R as (s1 & k & s0 & s2 & R & _). eauto 8.
Qed.

(** Renames need a command line that asks for them. *)
Lemma rename_started fuel sy argv tr p' :
  trace_of (main fuel sy argv) tr p' -> Exists is_rename tr ->
  exists ws fs o c, started sy argv ws fs o c /\ o_is_inline_mode o = false /\ o_dry_run o = false.
Proof.
  intros T X. destruct (exists_rename_pending _ _ _ _ _ _ _ T X) as (t1 & [] & old & new & k & R).
  destruct (main_rename _ _ _ _ _ _ _ _ _ _ _ R) as (ws & fs & o & c & pre & tr2 & [] & k' & St & Im & -> & F & R2).
  exists ws, fs, o, c. splits; auto. apply renames_proper in R2. tauto.
Qed.

(** Any call but printing on stdout needs it, too. *)
Lemma touch_started fuel sy argv tr p' :
  trace_of (main fuel sy argv) tr p' -> Exists (fun e => match e with Ev c _ => ~ is_print c end) tr ->
  exists ws fs o c, started sy argv ws fs o c.
Proof.
  intros T X. apply runs_work in T. destruct T as [(F & _)|(ws & fs & o & c & said & tr2 & s1 & St & _)]; [|eauto].
  apply Exists_exists in X. destruct X as ([c r] & I & H). rewrite Forall_forall in F. specialize (F _ I). easy.
Qed.

(** ** The command line, as the program sees it *)

Lemma wishes_granted pf getenv pkg argv ws fs :
  asks (is_set (getenv (bs "POSIXLY_CORRECT"))) (tl argv) ws fs -> Forall (fun w => ~ parting w) ws ->
  exists b o, (b = true <-> exists a r, argv = a :: r /\ called a (bs "inline-detox")) /\
    granted b (getenv (bs "DETOX_SEQUENCE")) ws o /\
    (In List_sequences ws -> parse_options_getopt pf getenv pkg argv = ([], Ok o)) /\
    (~ In List_sequences ws -> fs = [] -> b = false -> ~ In Inline_mode ws ->
       parse_options_getopt pf getenv pkg argv = (usage_message, Exit 1)) /\
    (~ In List_sequences ws -> fs <> [] \/ b = true \/ In Inline_mode ws ->
       parse_options_getopt pf getenv pkg argv = ([], Ok o) /\ usable_list (o_files o) /\
       items (o_files o) = fs /\ cursor (o_files o) = 0).
Proof.
  intros A N. destruct (options_read pf getenv pkg argv ws fs A N) as (o & G & Pf & E & F1 & F2).
  exists (inline_bin argv), o. split; [apply inline_bin_called|]. split; [exact G|].
  assert (L : ~ In List_sequences ws -> o_list_sequences o = false).
  { rewrite <- (g_list _ _ _ _ G). destruct (o_list_sequences o); auto. intros X. now elim X. }
  split; [|split].
  - intros I. now rewrite (proj2 (g_list _ _ _ _ G) I) in E.
  - intros X -> B I. rewrite (L X), B in E.
    assert (M : o_is_inline_mode o = false).
    { destruct (o_is_inline_mode o) eqn:M; auto. apply (proj1 (g_inline _ _ _ _ G)) in M. rewrite B in M. destruct M; [discriminate|easy]. }
    now rewrite M in E.
  - intros X Y. rewrite (L X) in E.
    assert (E' : parse_options_getopt pf getenv pkg argv = ([], Ok o)).
    { destruct fs; [|exact E]. destruct Y as [Y|Y]; [now elim Y|]. now rewrite (proj2 (g_inline _ _ _ _ G) Y) in E. }
    split; [exact E'|]. destruct (F2 (L X)) as (l & Ef & Gl & Il & Pl). rewrite Ef. split; [|auto].
    clear -E' Ef L X. unfold parse_options_getopt in E'.
    destruct (getopt_long letters longopts _ (tl argv) []) as [codes files].
    unfold wbind in E'. destruct (option_codes pkg codes _) as [t [o1|w|n]]; cbn [fst snd] in E'; apply (f_equal snd) in E'; try discriminate.
    cbn [snd] in E'. destruct (o_list_sequences o1) eqn:L1.
    + cbn [snd] in E'. injection E' as ->. rewrite (L X) in L1. discriminate.
    + destruct files as [|f files].
      * destruct (o_is_inline_mode o1); cbn [snd] in E'; [|discriminate]. injection E' as <-.
        cbn [set_files o_files] in Ef. injection Ef as <-. constructor.
      * cbn [snd] in E'. destruct (put_files filelist_init (f :: files)) as [l1| |] eqn:P; try discriminate.
        cbn [bind] in E'. injection E' as <-. cbn [set_files o_files] in Ef. injection Ef as <-.
        eapply put_files_usable; [|exact P]. constructor.
Qed.

Lemma parting_wishes pf getenv pkg argv before w after fs :
  asks (is_set (getenv (bs "POSIXLY_CORRECT"))) (tl argv) (before ++ w :: after) fs \/
  mistake (is_set (getenv (bs "POSIXLY_CORRECT"))) (tl argv) (before ++ w :: after) ->
  Forall (fun w => ~ parting w) before -> parting w ->
  snd (parse_options_getopt pf getenv pkg argv) = Exit 0 /\
  (w = Version -> fst (parse_options_getopt pf getenv pkg argv) = pkg ++ [eol]) /\
  (w <> Version -> exists more, fst (parse_options_getopt pf getenv pkg argv) =
     (if inline_bin argv then usage_message_inline else usage_message) ++ more /\ (w = Usage -> more = [])).
Proof.
  intros A N P.
  assert (E : parse_options_getopt pf getenv pkg argv =
    (match w with
     | Help => usage_for (inline_bin argv) ++ [eol] ++ help_for (inline_bin argv)
     | Version => pkg ++ [eol]
     | _ => usage_for (inline_bin argv)
     end, Exit EXIT_SUCCESS)).
  { destruct A as [A|A]; [exact (options_parting pf getenv pkg argv before w after fs A N P)
                         |exact (options_mistake_parting pf getenv pkg argv before w after A N P)]. }
  rewrite E. cbn [fst snd]. split; [reflexivity|]. split; [intros ->; reflexivity|]. intros V.
  destruct w; try (exfalso; destruct P as [P|[P|P]]; discriminate); [|now elim V|].
  - exists ([eol] ++ help_for (inline_bin argv)). split; [reflexivity|discriminate].
  - exists []. split; [|auto]. now rewrite app_nil_r.
Qed.

(** ** Whole runs *)

(** What a command line must be for a rename to be requested. *)
Lemma rename_needs fuel s argv tr p' :
  trace_of (main fuel s argv) tr p' -> Exists is_rename tr ->
  exists ws fs, asks (posix_env s) (tl argv) ws fs /\ fs <> [] /\ Forall (fun w => ~ parting w) ws /\
    ~ In List_sequences ws /\ ~ In Inline_mode ws /\ ~ In Dry_run ws /\
    ~ (exists a r, argv = a :: r /\ called a (bs "inline-detox")).
Proof.
  intros T X. destruct (rename_started fuel s argv tr p' T X) as (ws & fs & o & c & St & Im & D).
  pose proof (st_inline _ _ _ _ _ _ St) as SI. pose proof (st_dry_run _ _ _ _ _ _ St) as SD.
  exists ws, fs. split; [exact (st_asks _ _ _ _ _ _ St)|]. splits.
  - intros ->. pose proof (st_files _ _ _ _ _ _ St eq_refl). congruence.
  - exact (st_stays _ _ _ _ _ _ St).
  - exact (st_works _ _ _ _ _ _ St).
  - intros I. rewrite (proj2 SI) in Im by auto. discriminate.
  - intros I. rewrite (proj2 SD) in D by auto. discriminate.
  - intros I. rewrite (proj2 SI) in Im by auto. discriminate.
Qed.

(** Every call of an inline run reads or prints. *)
Lemma inline_calls fuel s argv tr p' ws fs :
  asks (posix_env s) (tl argv) ws fs ->
  In Inline_mode ws \/ (exists a r, argv = a :: r /\ called a (bs "inline-detox")) ->
  trace_of (main fuel s argv) tr p' -> Forall (fun e => match e with Ev c _ => reads_or_prints c end) tr.
Proof.
  intros A I T. destruct (main_cases fuel s argv) as [(w & E)|(ws' & fs' & o & c & said & St & E)].
  - apply ends_only in E. destruct (only_trace _ _ _ _ E T) as [F _]. eapply Forall_impl; [|exact F].
    intros [[] r]; simpl; auto.
  - destruct (asks_unique _ _ _ _ _ _ A (st_asks _ _ _ _ _ _ St)) as [-> ->].
    assert (Im : o_is_inline_mode o = true) by (apply (st_inline _ _ _ _ _ _ St); tauto).
    assert (O : only reads_or_prints (main fuel s argv)).
    { rewrite E. apply only_told; [|now apply work_inline]. apply Forall_forall. intros x _. exact Logic.I. }
    now destruct (only_trace _ _ _ _ O T).
Qed.

(** The same program with the file system: nothing is lost, whatever the arguments. *)
Lemma main_keeps w fuel s argv t tr t' p' :
  runs (fs_step w) alone (main fuel s argv) t tr t' p' -> nothing_lost t t'.
Proof.
  assert (Q : forall {A} (p : prog A) t tr t' p', only reads_or_prints p -> runs (fs_step w) alone p t tr t' p' -> t' = t).
  { clear. intros A p. induction p as [a|x|c k IH]; intros t tr t' p' O R; simpl in R.
    - destruct R as [(_ & -> & _)|[]]. reflexivity.
    - destruct R as [(_ & -> & _)|[]]. reflexivity.
    - destruct R as [(_ & -> & _)|(s0 & r & s1 & t1 & E & St & _ & R)]; [reflexivity|]. destruct O as [O1 O2].
      apply IH in R; [|apply O2]. subst t'. red in E. subst s0. apply fs_step_quiet in St; [exact St|].
      destruct c; simpl in *; auto. }
  intros R. destruct (main_cases fuel s argv) as [(x & E)|(ws & fs & o & c & said & St & E)].
  - apply ends_only in E. rewrite (Q _ (main fuel s argv) t tr t' p'); [apply nothing_lost_refl| |exact R].
    eapply only_weaken; [|exact E]. intros []; simpl; auto.
  - assert (Ot : forall l, only reads_or_prints (told l (Ret tt))) by (intros l; apply only_told; [apply Forall_forall; intros y _|]; exact I).
    rewrite E in R. apply runs_told in R. destruct R as [(l1 & l2 & -> & _ & -> & R1 & _)|(tr2 & s1 & -> & R1 & R)].
    { rewrite (Q _ _ _ _ _ _ (Ot l1) R1). apply nothing_lost_refl. }
    assert (s1 = t) as -> by exact (Q _ _ _ _ _ _ (Ot said) R1).
    destruct (o_is_inline_mode o) eqn:Im.
    + rewrite (Q _ _ _ _ _ _ (work_inline fuel o fs (o_files_to_ignore o) Im) R). apply nothing_lost_refl.
    + destruct (work_files _ _ _ _ _ _ _ _ _ _ Im R) as (q & Rq & _). eapply run_keeps; eauto.
Qed.

(** A rename request of the whole program. *)
Lemma main_requests w fuel s argv t tr t' old new k :
  runs (fs_step w) alone (main fuel s argv) t tr t' (Call (Rename old new) k) ->
  exists ws fs o c, started s argv ws fs o c /\ o_is_inline_mode o = false /\ o_dry_run o = false /\
    sound_request w o t' (Rename old new).
Proof.
  intros R. destruct (main_rename _ _ _ _ _ _ _ _ _ _ _ R) as (ws & fs & o & c & pre & tr2 & s1 & k' & St & Im & -> & F & R2).
  exists ws, fs, o, c. splits; auto.
  - apply runs_trace in R2. apply renames_proper in R2. tauto.
  - eapply run_requests; eauto.
Qed.

Lemma main_proper fuel s argv tr old new k :
  trace_of (main fuel s argv) tr (Call (Rename old new) k) ->
  exists ws fs o c, started s argv ws fs o c /\ proper_rename o old new /\
    (In Verbose ws -> exists tr', tr = tr' ++ [announced old new]).
Proof.
  intros R. destruct (main_rename _ _ _ _ _ _ _ _ _ _ _ R) as (ws & fs & o & c & pre & tr2 & s1 & k' & St & Im & -> & F & R2).
  exists ws, fs, o, c. apply runs_trace in R2. apply renames_proper in R2. destruct R2 as (P & _ & A). splits; auto.
  intros V. destruct A as (tr' & ->); [|exists (pre ++ tr'); now rewrite app_assoc].
  rewrite (st_verbose _ _ _ _ _ _ St). assert (I : In Verbose (filter is_verbose ws)) by (apply filter_In; auto).
  destruct (filter is_verbose ws); [elim I|]. cbn [length]. lia.
Qed.

(** Which sequence cleans the names. *)
Lemma main_sequence fuel s argv tr old new k :
  trace_of (main fuel s argv) tr (Call (Rename old new) k) ->
  exists ws fs file printed c name s0 s1 dir base clean,
    asks (posix_env s) (tl argv) ws fs /\
    last_of config_named ws file /\ config_file_load (m_env s) file = (printed, Ok c) /\
    wanted_sequence s ws name /\ sequence_choose_default (cf_sequences c) name = Some s0 /\
    loaded_with_tables s s0 s1 /\
    last_component old dir base /\ new = dir ++ clean /\
    sequence_run_filters (m_platform s) (Some s1) (Some base) = Ok (Some clean).
Proof.
  intros T. destruct (main_proper _ _ _ _ _ _ _ T) as (ws & fs & o & c & St & (dir & base & clean & L & E & _ & _ & _ & _ & Q) & _).
  destruct (st_config _ _ _ _ _ _ St) as (file & printed & F1 & F2).
  destruct (st_sequence _ _ _ _ _ _ St) as (name & s0 & s1 & W1 & W2 & W3 & W4).
  rewrite W4, (st_platform _ _ _ _ _ _ St) in Q. pose proof (st_asks _ _ _ _ _ _ St) as A.
  exists ws, fs, file, printed, c, name, s0, s1, dir, base, clean. splits; auto.
Qed.

Lemma mistake_prints fuel s argv tr p' ws :
  mistake (posix_env s) (tl argv) ws ->
  trace_of (main fuel s argv) tr p' -> Forall (fun e => match e with Ev c _ => is_print c end) tr.
Proof.
  intros M T. assert (O : only is_print (main fuel s argv)).
  { assert (X : forall n, snd (parse_options_says (m_platform s) (e_getenv (m_env s)) (m_package s) argv) = Exit n ->
                        only is_print (main fuel s argv)).
    { intros n E. rewrite main_eq, talking_bind, E. eapply ends_only, ends_told. constructor. }
    destruct (parting_split ws) as [N|(b & w & a & -> & N & P)].
    - eapply X, options_say, options_mistake; eauto.
    - eapply X, options_say, options_mistake_parting; eauto. }
  now destruct (only_trace _ _ _ _ O T).
Qed.

Lemma ends_ret {A} (p : prog A) w tr a : ends p w -> ~ trace_of p tr (Ret a).
Proof.
  intros E. revert tr. unfold trace_of. induction E as [w|out t k w E IH]; intros tr T; simpl in T.
  - destruct T as [(_ & _ & T)|[]]. discriminate.
  - destruct T as [(_ & _ & T)|(s0 & [] & [] & t1 & _ & _ & _ & R)]; [discriminate|]. exact (IH _ R).
Qed.

Lemma main_status fuel s argv tr n : trace_of (main fuel s argv) tr (Ret n) -> n = 0%N.
Proof.
  intros T. destruct (main_cases fuel s argv) as [(w & E)|(ws & fs & o & c & said & St & E)].
  - elim (ends_ret _ _ _ _ E T).
  - unfold trace_of in T. rewrite E in T. apply runs_told in T. destruct T as [(l1 & [|[out text] l2] & -> & Nl & _ & _ & X)|(tr2 & s1 & _ & _ & R)].
    + now elim Nl.
    + discriminate X.
    + unfold work in R. destruct (negb _); [|destruct fs]; apply runs_bind_inv in R.
      all: destruct R as [(q & _ & X)|(t1 & t2 & a & s2 & _ & _ & R)];
        [destruct q; try discriminate; now injection X as ->|simpl in R; destruct R as [(_ & _ & X)|[]]; now injection X as ->].
Qed.

(** The value that counts, as a function. *)
Definition latest {A} (value : A -> option str) (l : list A) : option str :=
  fold_left (fun v w => match value w with Some x => Some x | None => v end) l None.

Lemma latest_keeps {A} (value : A -> option str) l v : (forall w, In w l -> value w = None) ->
  fold_left (fun v w => match value w with Some x => Some x | None => v end) l v = v.
Proof. revert v. induction l as [|w l IH]; intros v H; simpl; auto. rewrite (H w) by (simpl; auto). apply IH. simpl in H. auto. Qed.

Lemma last_of_latest {A} (value : A -> option str) l v : last_of value l v -> v = latest value l.
Proof.
  unfold latest. intros [l' H|b w x a E H]; [now rewrite latest_keeps|].
  rewrite fold_left_app. simpl. now rewrite E, latest_keeps.
Qed.

Lemma last_of_unique {A} (value : A -> option str) l v v' : last_of value l v -> last_of value l v' -> v = v'.
Proof. intros H H'. apply last_of_latest in H, H'. congruence. Qed.

Lemma portable_out_of_the_box fuel s argv tr old new k :
  trace_of (main fuel s argv) tr (Call (Rename old new) k) ->
  (forall ws fs, asks (posix_env s) (tl argv) ws fs -> last_of config_named ws None /\
     exists name, In name [None; Some (bs "default"); Some (bs "iso8859_1"); Some (bs "iso8859_1-legacy"); Some (bs "utf_8"); Some (bs "uncgi")] /\
       wanted_sequence s ws name) ->
  config_paths (m_env s) = [] -> nonul old -> (strlen old < 2 ^ 50)%N ->
  exists dir base clean, last_component old dir base /\ new = dir ++ clean /\ portable clean.
Proof.
  intros T H CP N M.
  destruct (main_sequence _ _ _ _ _ _ _ T) as (ws & fs & file & printed & c & name & s0 & s1 & dir & base & clean & A & F & C & W & Ch & Rv & L & E & Q).
  exists dir, base, clean. split; [exact L|]. split; [exact E|].
  destruct (H ws fs A) as (F' & name' & In' & W').
  assert (file = None) as -> by (eapply last_of_unique; eauto).
  assert (name' = name) as ->.
  { destruct W as (n & W1 & ->). destruct W' as (n' & W1' & ->). now rewrite (last_of_unique _ _ _ _ W1' W1). }
  rewrite config_file_load_spec, CP in C. cbn [read_all] in C. apply (f_equal snd) in C. cbn [wbind fst snd] in C. injection C as <-.
  destruct L as (-> & _ & _).
  assert (Nb : nonul base) by (apply nonul_app in N; tauto).
  assert (Mb : small base).
  { unfold small. unfold strlen in *. rewrite app_length in M. eapply N.le_lt_trans; [|exact M]. lia. }
  assert (S : exists n, In n [bs "default"; bs "iso8859_1"; bs "iso8859_1-legacy"; bs "utf_8"; bs "uncgi"; bs "lower"] /\
                        n <> bs "lower" /\ shipped n s1).
  { assert (D : forall n, sequence_choose_default (cf_sequences spoof_config_file) (Some n) = Some s0 -> shipped n s1).
    { intros n X. destruct Rv as (find & _ & Rv). exists (e_datadir (m_env s)), find, s0. auto. }
    destruct In' as [<-|[<-|[<-|[<-|[<-|[<-|[]]]]]]].
    - exists (bs "default"). splits; [simpl; tauto|discriminate|]. apply D.
      rewrite choose_default in Ch. destruct (sequence_choose_default _ (Some (bs "default"))) eqn:X; [exact Ch|].
      vm_compute in X. discriminate.
    - exists (bs "default"). splits; [simpl; tauto|discriminate|auto].
    - exists (bs "iso8859_1"). splits; [simpl; tauto|discriminate|auto].
    - exists (bs "iso8859_1-legacy"). splits; [simpl; tauto|discriminate|auto].
    - exists (bs "utf_8"). splits; [simpl; tauto|discriminate|auto].
    - exists (bs "uncgi"). splits; [simpl; tauto|discriminate|auto]. }
  destruct S as (n & I & NL & Sh). eapply shipped_portable; eauto. intros X. now elim NL.
Qed.
