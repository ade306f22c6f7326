(** * Proofs about the command line *)

From Verif Require Import Base BaseFacts Filter Filelist FilelistProofs File FileSpec ConfigParse ConfigLoadProofs Options OptionsSpec.

Local Open Scope nat_scope.

(** Which codes getopt_long uses for a wish. *)
Inductive stands : code -> wish -> Prop :=
| stands_letter c w : letter c w -> stands (Short c None) w
| stands_with c v w : letter_with c v w -> stands (Short c (Some v)) w
| stands_inline : stands (Long LONG_OPTION_INLINE) Inline_mode
| stands_recursive : stands (Long LONG_OPTION_RECURSIVE) Recursive
| stands_special : stands (Long LONG_OPTION_SPECIAL) Special.

Lemma stands_fun c w w' : stands c w -> stands c w' -> w' = w.
Proof.
  intros A B. inversion A as [c1 w1 L1|c1 v1 w1 L1| | |]; subst; inversion B as [c2 w2 L2|c2 v2 w2 L2| | |]; subst; auto.
  - inversion L1; subst; inversion L2; subst; auto; discriminate.
  - inversion L1; subst; inversion L2; subst; auto; discriminate.
Qed.

Lemma letter_takes c w : letter c w -> takes_argument letters c = Some false.
Proof. intros H. inversion H; reflexivity. Qed.

Lemma letter_with_takes c v w : letter_with c v w -> takes_argument letters c = Some true.
Proof. intros H. inversion H; reflexivity. Qed.

Lemma takes_cases c :
  match takes_argument letters c with
  | None => ~ known_letter c
  | Some false => exists w, letter c w
  | Some true => forall v, exists w, letter_with c v w
  end.
Proof.
  unfold takes_argument, letters. simpl.
  repeat match goal with |- context [beq ?x c] => destruct (beq x c) eqn:?E end; simpl;
    repeat match goal with H : beq _ c = true |- _ => apply beq_eq in H; subst c end;
    try (eexists; constructor); try (intros v; eexists; constructor).
  intros [[w H]|(v & w & H)]; inversion H; subst; discriminate.
Qed.

Lemma cluster_letters cs us : alone_letters cs us ->
  exists codes, Forall2 stands codes us /\
    forall r, cluster letters (cs ++ r) = (codes ++ fst (cluster letters r), snd (cluster letters r)).
Proof.
  induction 1 as [|c w cs us L _ (codes & F & IH)].
  - exists []. split; [constructor|]. intros r. simpl. now destruct (cluster letters r).
  - exists (Short c None :: codes). split; [constructor; auto; now constructor|]. intros r.
    simpl. rewrite (letter_takes _ _ L), IH. reflexivity.
Qed.

Lemma cluster_plain cs us : alone_letters cs us ->
  exists codes, Forall2 stands codes us /\ cluster letters cs = (codes, None).
Proof.
  intros A. destruct (cluster_letters _ _ A) as (codes & F & E). exists codes. split; auto.
  specialize (E []). rewrite app_nil_r in E. rewrite E. simpl. now rewrite app_nil_r.
Qed.

(** An argument that is no operand *)
Lemma letter_not_dash c : known_letter c -> c <> "-"%byte.
Proof. intros [[w H]|(v & w & H)]; inversion H; discriminate. Qed.

Lemma getopt_operand posix f rest skipped : operand f ->
  getopt_long letters longopts posix (f :: rest) skipped =
  if posix then ([], f :: rest) else getopt_long letters longopts posix rest (skipped ++ [f]).
Proof.
  intros [->|O]; [reflexivity|]. destruct f as [|c [|d r]]; try reflexivity. cbn [getopt_long].
  destruct (beq c "-") eqn:E; [|reflexivity]. apply beq_eq in E. subst. now elim (O (d :: r)).
Qed.

(** Groups of letters *)
Lemma getopt_group posix s rest skipped : s <> [] -> (forall r, s <> "-"%byte :: r) ->
  getopt_long letters longopts posix (dashed s :: rest) skipped =
  match cluster letters s with
  | (codes, None) =>
    let (l, files) := getopt_long letters longopts posix rest skipped in (codes ++ l, files)
  | (codes, Some p) =>
    match rest with
    | [] => (codes ++ [BAD], skipped)
    | v :: rest' =>
      let (l, files) := getopt_long letters longopts posix rest' skipped in (codes ++ Short p (Some v) :: l, files)
    end
  end.
Proof.
  intros N D. unfold dashed. destruct s as [|c r]; [easy|].
  assert (E : beq c "-" = false) by (apply beq_neq; intros ->; now elim (D r)).
  cbn [getopt_long]. change (beq "-" "-") with true. cbn [negb]. rewrite E. reflexivity.
Qed.

Lemma is_prefix_iff p : forall s, is_prefix p s = true <-> exists more, s = p ++ more.
Proof.
  induction p as [|x p IH]; intros s; simpl.
  - split; eauto.
  - destruct s as [|y s]; [split; [discriminate|intros (m & E); discriminate]|].
    rewrite andb_true_iff, beq_eq, IH. split.
    + intros (-> & m & ->). eauto.
    + intros (m & E). injection E as -> ->. eauto.
Qed.

Lemma upto_equals_spec s : ~ In "="%byte s /\ upto_equals s = (s, false) \/ In "="%byte s /\ snd (upto_equals s) = true.
Proof.
  induction s as [|c r IH]; simpl; [left; auto|].
  destruct (beq c "=") eqn:E; [apply beq_eq in E; subst; right; auto|]. apply beq_neq in E.
  destruct IH as [[N ->]|[I H]].
  - left. split; auto. intros [->|X]; auto.
  - right. split; auto. destruct (upto_equals r). exact H.
Qed.

Lemma long_name_plain n w : long_name n w -> ~ In "="%byte n.
Proof. intros H I. inversion H; subst; simpl in I; repeat (destruct I as [I|I]; [discriminate|]); exact I. Qed.

Lemma long_find text w : long_option text w ->
  exists r, stands (coded r) w /\ long_match longopts text = Some r.
Proof.
  intros (N & name & more & L & E).
  destruct L; cbn [bs list_byte_of_string] in E;
    (destruct text as [|c1 text]; [now elim N|]; clear N; simpl in E; injection E as <- E);
    repeat (destruct text as [|? text];
            [clear E; eexists; split; [|vm_compute; reflexivity]; simpl; repeat constructor
            |simpl in E; first [discriminate E | injection E as <- E]]).
Qed.

Lemma long_unknown text : text <> [] -> (forall w, ~ long_option text w) ->
  long_match longopts text = None.
Proof.
  intros N U. unfold long_match.
  assert (A : forall o, In o longopts -> exists w, long_name (fst o) w).
  { intros o I. simpl in I. repeat (destruct I as [<-|I]; [eexists; constructor|]). elim I. }
  destruct (find _ longopts) as [o|] eqn:F.
  - apply find_some in F. destruct F as [I E]. apply str_eqb_eq in E. destruct (A _ I) as [w L].
    elim (U w). split; auto. exists (fst o), []. now rewrite app_nil_r.
  - destruct (filter (fun o => is_prefix text (fst o)) longopts) as [|o l] eqn:X; [reflexivity|].
    assert (I : In o (filter (fun o => is_prefix text (fst o)) longopts)) by (rewrite X; now left).
    apply filter_In in I. destruct I as [I P]. apply is_prefix_iff in P. destruct P as [m P], (A _ I) as [w L].
    elim (U w). split; eauto.
Qed.

Lemma long_option_plain text w : long_option text w -> ~ In "="%byte text.
Proof. intros (_ & name & more & L & ->) I. apply (long_name_plain _ _ L). apply in_or_app. auto. Qed.

Lemma long_code_good text w : long_option text w -> stands (long_code longopts text) w.
Proof.
  intros L. unfold long_code. destruct (upto_equals_spec text) as [[_ ->]|[I _]]; [|now apply long_option_plain in L].
  destruct (long_find _ _ L) as (r & S & ->). exact S.
Qed.

Lemma long_code_bad text : text <> [] -> (forall w, ~ long_option text w) -> long_code longopts text = BAD.
Proof.
  intros N U. unfold long_code. destruct (upto_equals_spec text) as [[_ ->]|[I E]].
  - now rewrite long_unknown.
  - destruct (upto_equals text) as [name e]. simpl in E. subst e. now destruct (long_match longopts name).
Qed.

Lemma long_option_dec text : (exists w, long_option text w) \/ (forall w, ~ long_option text w).
Proof.
  destruct text as [|c t]; [right; intros w [N _]; auto|].
  destruct (filter (fun o => is_prefix (c :: t) (fst o)) longopts) as [|o l] eqn:X.
  - right. intros w (_ & name & more & L & E).
    assert (I : exists r, In (name, r) longopts) by (destruct L; eexists; simpl; eauto 10).
    destruct I as [r I].
    assert (J : In (name, r) (filter (fun o => is_prefix (c :: t) (fst o)) longopts)).
    { apply filter_In. split; auto. apply is_prefix_iff. eauto. }
    now rewrite X in J.
  - left. assert (I : In o (filter (fun o => is_prefix (c :: t) (fst o)) longopts)) by (rewrite X; now left).
    apply filter_In in I. destruct I as [I P]. apply is_prefix_iff in P. destruct P as [m P].
    assert (L : exists w, long_name (fst o) w).
    { simpl in I. repeat (destruct I as [<-|I]; [eexists; constructor|]). elim I. }
    destruct L as [w L]. exists w. split; [discriminate|]. eauto.
Qed.

Lemma getopt_double posix text rest skipped : text <> [] ->
  getopt_long letters longopts posix (double_dashed text :: rest) skipped =
  let (l, files) := getopt_long letters longopts posix rest skipped in (long_code longopts text :: l, files).
Proof. intros N. destruct text; [easy|]. reflexivity. Qed.

Lemma alone_head cs us c r : alone_letters cs us -> known_letter c \/ cs <> [] \/ c <> "-"%byte ->
  forall x, cs ++ c :: r <> "-"%byte :: x.
Proof.
  intros A K x E. destruct A as [|c0 w cs us L A].
  - injection E as -> _. destruct K as [K|[K|K]]; auto. now apply letter_not_dash in K.
  - injection E as -> _. assert (K0 : known_letter "-"%byte) by (left; eauto). now apply letter_not_dash in K0.
Qed.

Lemma known_with c v w : letter_with c v w -> known_letter c.
Proof. right. eauto. Qed.

(** Good arguments. *)
Lemma asks_codes posix args ws fs : asks posix args ws fs -> forall skipped, (posix = true -> skipped = []) ->
  exists cs, Forall2 stands cs ws /\ getopt_long letters longopts posix args skipped = (cs, skipped ++ fs).
Proof.
  induction 1 as [|files|f rest ws fs P O _ IH|f rest P O|cs us rest ws fs N A _ IH|cs us c v w rest ws fs A L N _ IH
                 |cs us c v w rest ws fs A L _ IH|text w rest ws fs L _ IH]; intros sk S.
  - exists []. split; [constructor|]. simpl. now rewrite app_nil_r.
  - exists []. split; [constructor|]. reflexivity.
  - rewrite getopt_operand by assumption. subst posix.
    destruct (IH (sk ++ [f])) as (cs & F & ->); [discriminate|]. exists cs. split; auto. now rewrite <- app_assoc.
  - rewrite getopt_operand by assumption. subst posix. rewrite S by reflexivity. exists []. split; [constructor|reflexivity].
  - assert (D : forall r, cs <> "-"%byte :: r).
    { intros r ->. inversion A as [|? w0 ? ? L0 A0]; subst. assert (K : known_letter "-"%byte) by (left; eauto).
      now apply letter_not_dash in K. }
    rewrite getopt_group by assumption.
    destruct (cluster_plain _ _ A) as (codes & F & ->). destruct (IH sk S) as (cs' & F' & ->).
    exists (codes ++ cs'). split; [now apply Forall2_app|reflexivity].
  - rewrite getopt_group; [|now destruct cs|apply alone_head with us; auto; left; now apply known_with in L].
    destruct (cluster_letters _ _ A) as (codes & F & ->). cbn [cluster]. rewrite (letter_with_takes _ _ _ L).
    destruct v as [|v0 v]; [easy|]. cbn [fst snd]. destruct (IH sk S) as (cs' & F' & ->).
    exists (codes ++ Short c (Some (v0 :: v)) :: cs'). split.
    + apply Forall2_app; auto. constructor; auto. now constructor.
    + now rewrite <- app_assoc.
  - rewrite getopt_group; [|now destruct cs|apply alone_head with us; auto; left; now apply known_with in L].
    destruct (cluster_letters _ _ A) as (codes & F & ->). cbn [cluster]. rewrite (letter_with_takes _ _ _ L).
    cbn [fst snd]. destruct (IH sk S) as (cs' & F' & ->).
    exists (codes ++ Short c (Some v) :: cs'). split.
    + apply Forall2_app; auto. constructor; auto. now constructor.
    + now rewrite app_nil_r.
  - rewrite getopt_double by apply L. destruct (IH sk S) as (cs' & F' & ->).
    exists (long_code longopts text :: cs'). split; auto. constructor; auto. now apply long_code_good.
Qed.

(** Arguments with a mistake. *)
Lemma mistake_codes posix args ws : mistake posix args ws -> forall skipped,
  exists cs more, Forall2 stands cs ws /\ fst (getopt_long letters longopts posix args skipped) = cs ++ BAD :: more.
Proof.
  induction 1 as [cs us c r rest A K D|cs us c v w A L|text rest N U|f rest ws P O _ IH|cs us rest ws N A _ IH|cs us c v w rest ws A L N _ IH
                 |cs us c v w rest ws A L _ IH|text w rest ws L _ IH]; intros sk.
  - rewrite getopt_group; [|now destruct cs|].
    2:{ apply alone_head with us; auto. right. destruct cs; [right; auto|left; discriminate]. }
    destruct (cluster_letters _ _ A) as (codes & F & ->). cbn [cluster].
    pose proof (takes_cases c) as T. destruct (takes_argument letters c) as [[|]|].
    + elim K. right. exists []. apply T.
    + elim K. left. apply T.
    + destruct (cluster letters r) as [l [p|]]; cbn [fst snd].
      * destruct rest as [|v rest].
        -- exists codes, (l ++ [BAD]). split; auto. cbn [fst]. now rewrite <- app_assoc.
        -- destruct (getopt_long letters longopts posix rest sk) as [l' fs].
           exists codes, (l ++ Short p (Some v) :: l'). split; auto. cbn [fst]. now rewrite <- app_assoc.
      * destruct (getopt_long letters longopts posix rest sk) as [l' fs].
        exists codes, (l ++ l'). split; auto. cbn [fst]. now rewrite <- app_assoc.
  - rewrite getopt_group; [|now destruct cs|apply alone_head with us; auto; left; now apply known_with in L].
    destruct (cluster_letters _ _ A) as (codes & F & ->). cbn [cluster]. rewrite (letter_with_takes _ _ _ L).
    exists codes, []. split; auto. cbn [fst snd]. now rewrite app_nil_r.
  - rewrite getopt_double by assumption. destruct (getopt_long letters longopts posix rest sk) as [l' fs].
    exists [], l'. split; [constructor|]. cbn [fst]. now rewrite long_code_bad.
  - rewrite getopt_operand by assumption. subst posix. apply IH.
  - assert (D : forall r, cs <> "-"%byte :: r).
    { intros r ->. inversion A as [|? w0 ? ? L0 A0]; subst. assert (K : known_letter "-"%byte) by (left; eauto).
      now apply letter_not_dash in K. }
    rewrite getopt_group by assumption.
    destruct (cluster_plain _ _ A) as (codes & F & ->). destruct (IH sk) as (cs' & more & F' & E).
    destruct (getopt_long letters longopts posix rest sk) as [l' fs]. cbn [fst] in *. subst l'.
    exists (codes ++ cs'), more. split; [now apply Forall2_app|now rewrite app_assoc].
  - rewrite getopt_group; [|now destruct cs|apply alone_head with us; auto; left; now apply known_with in L].
    destruct (cluster_letters _ _ A) as (codes & F & ->). cbn [cluster]. rewrite (letter_with_takes _ _ _ L).
    destruct v as [|v0 v]; [easy|]. cbn [fst snd]. destruct (IH sk) as (cs' & more & F' & E).
    destruct (getopt_long letters longopts posix rest sk) as [l' fs]. cbn [fst] in *. subst l'.
    exists (codes ++ Short c (Some (v0 :: v)) :: cs'), more. split.
    + apply Forall2_app; auto. constructor; auto. now constructor.
    + now rewrite <- !app_assoc.
  - rewrite getopt_group; [|now destruct cs|apply alone_head with us; auto; left; now apply known_with in L].
    destruct (cluster_letters _ _ A) as (codes & F & ->). cbn [cluster]. rewrite (letter_with_takes _ _ _ L).
    cbn [fst snd]. destruct (IH sk) as (cs' & more & F' & E).
    destruct (getopt_long letters longopts posix rest sk) as [l' fs]. cbn [fst] in *. subst l'.
    exists (codes ++ Short c (Some v) :: cs'), more. split.
    + apply Forall2_app; auto. constructor; auto. now constructor.
    + now rewrite app_nil_r, <- app_assoc.
  - rewrite getopt_double by apply L. destruct (IH sk) as (cs' & more & F' & E).
    destruct (getopt_long letters longopts posix rest sk) as [l' fs]. cbn [fst] in *. subst l'.
    exists (long_code longopts text :: cs'), more. split; auto. constructor; auto. now apply long_code_good.
Qed.

(** Nothing else. *)
Lemma group_cases s : 
  (exists us, alone_letters s us) \/
  (exists cs us c v, s = cs ++ c :: v /\ alone_letters cs us /\ forall v, exists w, letter_with c v w) \/
  (exists cs us c r, s = cs ++ c :: r /\ alone_letters cs us /\ ~ known_letter c).
Proof.
  induction s as [|c s IH]; [left; exists []; constructor|].
  pose proof (takes_cases c) as T. destruct (takes_argument letters c) as [[|]|].
  - right. left. exists [], [], c, s. splits; auto. constructor.
  - destruct T as [w L]. destruct IH as [(us & A)|[(cs & us & c' & v & -> & A & W)|(cs & us & c' & r & -> & A & K)]].
    + left. exists (w :: us). now constructor.
    + right. left. exists (c :: cs), (w :: us), c', v. splits; auto. now constructor.
    + right. right. exists (c :: cs), (w :: us), c', r. splits; auto. now constructor.
  - right. right. exists [], [], c, s. splits; auto. constructor.
Qed.

Lemma operand_dec a : operand a \/ (exists c r, a = dashed (c :: r)).
Proof.
  destruct a as [|c a]; [left; right; discriminate|].
  destruct (beq c "-") eqn:E.
  - apply beq_eq in E. subst. destruct a as [|c r]; [left; left; reflexivity|right; unfold dashed; eauto].
  - apply beq_neq in E. left. right. congruence.
Qed.

Lemma asks_or_mistake posix : forall n args, length args <= n ->
  (exists ws fs, asks posix args ws fs) \/ (exists ws, mistake posix args ws).
Proof.
  induction n as [|n IH]; intros args Hn.
  { destruct args; [|simpl in Hn; lia]. left. do 2 eexists. constructor. }
  destruct args as [|a rest]; [left; do 2 eexists; constructor|]. simpl in Hn.
  destruct (operand_dec a) as [O|(c & s & ->)].
  { destruct posix eqn:P.
    - left. do 2 eexists. now apply asks_stop.
    - destruct (IH rest) as [(ws & fs & G)|(ws & M)]; [lia| |].
      + left. do 2 eexists. apply asks_file; eauto.
      + right. eexists. apply mistake_file; eauto. }
  destruct (beq c "-") eqn:E.
  { apply beq_eq in E. subst. change (dashed ("-"%byte :: s)) with (double_dashed s).
    destruct s as [|c s]; [left; do 2 eexists; apply asks_end|].
    destruct (long_option_dec (c :: s)) as [[w L]|U].
    - destruct (IH rest) as [(ws & fs & G)|(ws & M)]; [lia| |].
      + left. do 2 eexists. apply asks_long; eauto.
      + right. eexists. apply mistake_after_long; eauto.
    - right. eexists. apply mistake_long; auto. discriminate. }
  apply beq_neq in E.
  destruct (group_cases (c :: s)) as [(us & A)|[(cs & us & c' & v & Es & A & W)|(cs & us & c' & r & Es & A & K)]].
  - destruct (IH rest) as [(ws & fs & G)|(ws & M)]; [lia| |].
    + left. do 2 eexists. apply asks_letters; eauto. discriminate.
    + right. eexists. apply mistake_letters; eauto. discriminate.
  - rewrite Es. destruct v as [|v0 v].
    + destruct rest as [|v rest].
      * right. destruct (W []) as [w L]. eexists. eapply mistake_missing; eauto.
      * destruct (W v) as [w L]. simpl in Hn.
        destruct (IH rest) as [(ws & fs & G)|(ws & M)]; [lia| |].
        -- left. do 2 eexists. eapply asks_separate; eauto.
        -- right. eexists. eapply mistake_separate; eauto.
    + destruct (W (v0 :: v)) as [w L]. destruct (IH rest) as [(ws & fs & G)|(ws & M)]; [lia| |].
      * left. do 2 eexists. eapply asks_attached; eauto. discriminate.
      * right. eexists. eapply mistake_attached; eauto. discriminate.
  - rewrite Es. right. exists us. apply mistake_letter; auto. intros ->. simpl in Es. congruence.
Qed.

(** ** The switch *)

Definition grant (w : wish) (o : options_t) : options_t :=
  match w with
  | Help | Version | Usage => o
  | List_sequences => set_list_sequences o
  | Dry_run => set_dry_run o
  | Recursive => set_recurse o
  | Verbose => more_verbose o
  | Inline_mode => set_inline_mode o
  | Special => set_special o
  | Use_sequence n => set_sequence_name n o
  | Use_config n => set_check_config_file n o
  end.

Definition farewell (pkg : str) (w : wish) (o : options_t) : str :=
  match w with
  | Help => usage o ++ [eol] ++ help o
  | Version => pkg ++ [eol]
  | _ => usage o
  end.

Lemma parting_dec w : {parting w} + {~ parting w}.
Proof. unfold parting. destruct w; try (left; tauto); right; intros [H|[H|H]]; discriminate. Qed.

Lemma option_code_grants pkg c w o : stands c w ->
  option_code pkg c o = if parting_dec w then (farewell pkg w o, Exit EXIT_SUCCESS) else ([], Ok (grant w o)).
Proof.
  intros S. destruct (parting_dec w) as [P|P].
  - destruct S as [c w L|c v w L| | |]; [destruct L|destruct L| | |]; try reflexivity;
      destruct P as [P|[P|P]]; discriminate.
  - destruct S as [c w L|c v w L| | |]; [destruct L|destruct L| | |]; try reflexivity;
      elim P; unfold parting; tauto.
Qed.

Lemma option_codes_grants pkg cs ws : Forall2 stands cs ws -> Forall (fun w => ~ parting w) ws -> forall more o,
  option_codes pkg (cs ++ more) o = option_codes pkg more (fold_left (fun o w => grant w o) ws o).
Proof.
  induction 1 as [|c w cs ws S _ IH]; intros N more o; [reflexivity|]. inversion N; subst.
  cbn [app option_codes fold_left]. rewrite (option_code_grants _ _ _ _ S).
  destruct (parting_dec w); [easy|]. rewrite wbind_ret. now apply IH.
Qed.

Lemma last_of_app_none {A} (value : A -> option str) l w n : value w = None -> last_of value l n -> last_of value (l ++ [w]) n.
Proof.
  intros V L. destruct L as [l H|b x v a E H].
  - constructor. intros x I. apply in_app_iff in I. destruct I as [I|[<-|[]]]; auto.
  - rewrite <- app_assoc. simpl. constructor; auto. intros y I. apply in_app_iff in I. destruct I as [I|[<-|[]]]; auto.
Qed.

Lemma last_of_app_some {A} (value : A -> option str) l w v : value w = Some v -> last_of value (l ++ [w]) (Some v).
Proof. intros V. now constructor. Qed.

Lemma in_snoc {A} (x y : A) l : In x (l ++ [y]) <-> In x l \/ y = x.
Proof. rewrite in_app_iff. simpl. tauto. Qed.

Lemma granted_step b e ws o w : granted b e ws o -> ~ parting w -> granted b e (ws ++ [w]) (grant w o).
Proof.
  intros [D R S L B I V (n & Q & Q') C P] N.
  assert (Lf : length (filter is_verbose (ws ++ [w])) = length (filter is_verbose ws) + (if is_verbose w then 1 else 0)).
  { rewrite filter_app, app_length. simpl. now destruct (is_verbose w). }
  destruct w; try (elim N; unfold parting; tauto);
    (constructor; rewrite ?in_snoc; cbn [grant set_list_sequences set_dry_run set_recurse more_verbose set_inline_mode set_special
        set_sequence_name set_check_config_file o_platform o_dry_run o_is_inline_bin o_is_inline_mode
        o_list_sequences o_recurse o_special o_verbose o_sequence_to_use o_files_to_ignore o_sequence_name o_check_config_file o_files];
     rewrite ?Lf; cbn [is_verbose];
     try assumption;
     try (first [rewrite D | rewrite R | rewrite S | rewrite L | rewrite I]; intuition discriminate);
     try (intuition congruence);
     try (rewrite V; lia);
     try (eexists; split; [first [apply last_of_app_none; [reflexivity|eassumption] | apply last_of_app_some; reflexivity]|]; auto; fail);
     try (first [apply last_of_app_none; [reflexivity|assumption] | apply last_of_app_some; reflexivity])).
Qed.

Lemma granted_start pf getenv argv0 :
  granted (str_eqb (basename argv0) (bs "inline-detox")) (getenv (bs "DETOX_SEQUENCE")) [] (options_start pf getenv argv0).
Proof.
  constructor; unfold options_start; simpl; try (split; [discriminate|tauto]); try reflexivity.
  - tauto.
  - exists None. split; [constructor; intros w []|reflexivity].
  - constructor. intros w [].
  - auto.
Qed.

Lemma granted_fold b e o : granted b e [] o -> forall ws, Forall (fun w => ~ parting w) ws ->
  granted b e ws (fold_left (fun o w => grant w o) ws o).
Proof.
  intros G ws. induction ws as [|w ws IH] using rev_ind; intros N; [exact G|].
  apply Forall_app in N. destruct N as [N1 N2]. inversion N2; subst.
  rewrite fold_left_app. cbn [fold_left]. apply granted_step; auto.
Qed.

Lemma fold_platform ws : forall o, o_platform (fold_left (fun o w => grant w o) ws o) = o_platform o /\
  o_files (fold_left (fun o w => grant w o) ws o) = o_files o /\
  o_is_inline_bin (fold_left (fun o w => grant w o) ws o) = o_is_inline_bin o.
Proof.
  induction ws as [|w ws IH]; intros o; [auto|]. cbn [fold_left]. destruct (IH (grant w o)) as (-> & -> & ->). now destruct w.
Qed.

(** ** The name of the program *)

Lemma skip_slashes_spec s : exists a, s = a ++ skip_slashes s /\ Forall (eq "/"%byte) a /\ forall r, skip_slashes s <> "/"%byte :: r.
Proof.
  induction s as [|c s (a & E & F & H)]; simpl; [exists []; splits; auto; discriminate|].
  destruct (beq c "/") eqn:B.
  - apply beq_eq in B. subst c. exists ("/"%byte :: a). splits; auto. simpl. congruence.
  - apply beq_neq in B. exists []. splits; auto. congruence.
Qed.

Lemma skip_slashes_unique a r : Forall (eq "/"%byte) a -> (forall x, r <> "/"%byte :: x) -> skip_slashes (a ++ r) = r.
Proof.
  induction 1 as [|c a <- _ IH]; intros N; simpl.
  - destruct r as [|c r]; [reflexivity|]. simpl. destruct (beq c "/") eqn:B; [|reflexivity].
    apply beq_eq in B. subst. now elim (N r).
  - auto.
Qed.

Lemma until_slash_spec s : ~ In "/"%byte (until_slash s) /\ exists r, s = until_slash s ++ r /\ (r = [] \/ exists r', r = "/"%byte :: r').
Proof.
  induction s as [|c s (N & r & E & H)]; simpl; [split; [tauto|exists []; auto]|].
  destruct (beq c "/") eqn:B.
  - apply beq_eq in B. subst. split; [tauto|]. eexists. split; [reflexivity|]. right. eauto.
  - apply beq_neq in B. split; [intros [->|X]; auto|]. exists r. split; auto. simpl. congruence.
Qed.

Lemma until_slash_unique n r : ~ In "/"%byte n -> (r = [] \/ exists r', r = "/"%byte :: r') -> until_slash (n ++ r) = n.
Proof.
  induction n as [|c n IH]; intros N H; simpl.
  - destruct H as [->|(r' & ->)]; reflexivity.
  - destruct (beq c "/") eqn:B; [apply beq_eq in B; subst; elim N; now left|].
    f_equal. apply IH; auto. intros X. apply N. now right.
Qed.

Lemma basename_nonempty p : p <> [] ->
  basename (Some p) = match skip_slashes (rev p) with [] => bs "/" | r => rev (until_slash r) end.
Proof. destruct p; easy. Qed.

Lemma basename_called (argv0 name : str) : name <> [] -> ~ In "/"%byte name -> name <> bs "." ->
  (basename (Some argv0) = name <-> called argv0 name).
Proof.
  intros N S D. split.
  - intros <-. unfold basename in *. destruct argv0 as [|c0 p0]; [now elim D|]. set (p := c0 :: p0) in *.
    destruct (skip_slashes_spec (rev p)) as (a & E & F & H).
    destruct (skip_slashes (rev p)) as [|c r] eqn:K; [elim S; now left|].
    destruct (until_slash_spec (c :: r)) as (U & d & Ed & Hd).
    exists (rev d), (rev a). splits; auto.
    + rewrite <- (rev_involutive p), E, Ed, !rev_app_distr, app_assoc, <- Ed. reflexivity.
    + now apply Forall_rev.
    + destruct Hd as [->|(r' & ->)]; [now left|]. right. exists (rev r'). reflexivity.
  - intros (dir & slashes & -> & _ & _ & F & Hd).
    assert (Z : dir ++ name ++ slashes <> []) by (destruct dir, name; easy).
    rewrite basename_nonempty by exact Z.
    rewrite !rev_app_distr, <- app_assoc.
    destruct (rev name) as [|c r] eqn:R.
    { apply (f_equal (@rev byte)) in R. rewrite rev_involutive in R. now elim N. }
    assert (Nc : ~ In "/"%byte (c :: r)) by (rewrite <- R, <- in_rev; exact S).
    rewrite skip_slashes_unique; [|now apply Forall_rev|].
    2:{ intros x E. injection E as -> _. apply Nc. now left. }
    cbn [app]. change (c :: r ++ rev dir) with ((c :: r) ++ rev dir). rewrite until_slash_unique; auto.
    + now rewrite <- R, rev_involutive.
    + destruct Hd as [->|(d & ->)]; [now left|right]. rewrite rev_app_distr. simpl. eauto.
Qed.

(** ** The whole of parse_options_getopt *)

Definition inline_bin (argv : list str) : bool := str_eqb (basename (hd_error argv)) (bs "inline-detox").

Lemma inline_bin_iff a args : inline_bin (a :: args) = true <-> called a (bs "inline-detox").
Proof.
  unfold inline_bin. cbn [hd_error]. rewrite str_eqb_eq. apply basename_called; try discriminate.
  simpl. intros I. repeat (destruct I as [I|I]; [discriminate|]). exact I.
Qed.

Definition posixly (getenv : str -> option str) : bool :=
  match getenv (bs "POSIXLY_CORRECT") with Some _ => true | None => false end.

Definition usage_for (b : bool) : str := if b then usage_message_inline else usage_message.
Definition help_for (b : bool) : str := if b then help_message_inline else help_message.

Lemma put_files_ok files : exists l, put_files filelist_init files = Ok l /\ good l /\ items (Some l) = files /\ fl_ptr l = 0.
Proof.
  assert (E : forall l, put_files l files = put_all l files).
  { induction files as [|f fs IH]; intros l; [reflexivity|]. cbn [put_files put_all].
    destruct (filelist_put (Some l) f); simpl; auto. }
  rewrite E. destruct (put_all_good filelist_init files good_init) as (l & P & G & I & C).
  exists l. split; [exact P|]. splits; auto. destruct files; [now injection P as <-|]. apply C. discriminate.
Qed.

Lemma granted_files b e ws o l : granted b e ws o -> granted b e ws (set_files l o).
Proof. intros [D R S L B I V Q C P]. constructor; auto. Qed.

Lemma usage_granted b e ws o : granted b e ws o -> usage o = usage_for b.
Proof. intros G. unfold usage. now rewrite (g_inline_bin _ _ _ _ G). Qed.

(** Arguments that make sense, none of which ends the program. *)
Lemma options_read pf getenv pkg argv ws fs :
  asks (posixly getenv) (tl argv) ws fs -> Forall (fun w => ~ parting w) ws ->
  exists o, granted (inline_bin argv) (getenv (bs "DETOX_SEQUENCE")) ws o /\ o_platform o = pf /\
    parse_options_getopt pf getenv pkg argv =
      (if o_list_sequences o then ([], Ok o)
       else match fs with
            | [] => if o_is_inline_mode o then ([], Ok o) else (usage_for (inline_bin argv), Exit EXIT_FAILURE)
            | _ => ([], Ok o)
            end) /\
    (o_list_sequences o = true -> o_files o = None) /\
    (o_list_sequences o = false -> exists l, o_files o = Some l /\ good l /\ items (Some l) = fs /\ fl_ptr l = 0).
Proof.
  intros A N. destruct (asks_codes _ _ _ _ A []) as (cs & F & E); [auto|].
  unfold parse_options_getopt. fold (posixly getenv). rewrite E.
  rewrite <- (app_nil_r cs), (option_codes_grants pkg _ _ F N). cbn [option_codes]. rewrite wbind_ret. cbn [app].
  pose proof (granted_fold _ _ _ (granted_start pf getenv (hd_error argv)) ws N) as G. fold (inline_bin argv) in G.
  destruct (fold_platform ws (options_start pf getenv (hd_error argv))) as (P1 & P2 & P3).
  set (o := fold_left _ ws _) in *. cbn [options_start o_platform o_files] in P1, P2.
  destruct (o_list_sequences o) eqn:L.
  - exists o. rewrite L. split; [exact G|]. split; [exact P1|]. split; [reflexivity|]. split; [auto|discriminate].
  - destruct (put_files_ok fs) as (l & El & Gl & Il & Cl). exists (set_files l o).
    split; [now apply granted_files|]. split; [exact P1|].
    change (o_list_sequences (set_files l o)) with (o_list_sequences o). rewrite L.
    change (o_is_inline_mode (set_files l o)) with (o_is_inline_mode o).
    split; [|split; [discriminate|]].
    + destruct fs as [|f fs].
      * simpl in El. injection El as <-. destruct (o_is_inline_mode o); [reflexivity|]. now rewrite (usage_granted _ _ _ _ G).
      * rewrite El. reflexivity.
    + intros _. exists l. split; [reflexivity|]. auto.
Qed.

(** Arguments that end the program. *)
Lemma options_parting pf getenv pkg argv before w after fs :
  asks (posixly getenv) (tl argv) (before ++ w :: after) fs -> Forall (fun w => ~ parting w) before -> parting w ->
  parse_options_getopt pf getenv pkg argv =
    (match w with
     | Help => usage_for (inline_bin argv) ++ [eol] ++ help_for (inline_bin argv)
     | Version => pkg ++ [eol]
     | _ => usage_for (inline_bin argv)
     end, Exit EXIT_SUCCESS).
Proof.
  intros A N P. destruct (asks_codes _ _ _ _ A []) as (cs & F & E); [auto|].
  unfold parse_options_getopt. fold (posixly getenv). rewrite E.
  apply Forall2_app_inv_r in F. destruct F as (c1 & c2 & F1 & F2 & ->). inversion F2 as [|c w' c3 ws' S F3]; subst.
  rewrite (option_codes_grants pkg _ _ F1 N). cbn [option_codes]. rewrite (option_code_grants _ _ _ _ S).
  destruct (parting_dec w) as [_|X]; [|easy].
  pose proof (granted_fold _ _ _ (granted_start pf getenv (hd_error argv)) before N) as G. fold (inline_bin argv) in G.
  unfold wbind. cbn [fst snd]. f_equal. unfold farewell, usage, help.
  rewrite (g_inline_bin _ _ _ _ G). now destruct w.
Qed.

Lemma options_mistake pf getenv pkg argv ws :
  mistake (posixly getenv) (tl argv) ws -> Forall (fun w => ~ parting w) ws ->
  parse_options_getopt pf getenv pkg argv = (usage_for (inline_bin argv), Exit EXIT_SUCCESS).
Proof.
  intros M N. destruct (mistake_codes _ _ _ M []) as (cs & more & F & E).
  unfold parse_options_getopt. fold (posixly getenv).
  destruct (getopt_long letters longopts (posixly getenv) (tl argv) []) as [codes files]. cbn [fst] in E. subst codes.
  rewrite (option_codes_grants pkg _ _ F N). cbn [option_codes].
  change BAD with (Short "?"%byte None). rewrite (option_code_grants _ _ Usage) by repeat constructor.
  destruct (parting_dec Usage) as [_|X]; [|elim X; unfold parting; tauto].
  pose proof (granted_fold _ _ _ (granted_start pf getenv (hd_error argv)) ws N) as G. fold (inline_bin argv) in G.
  unfold wbind. cbn [fst snd farewell]. f_equal. now rewrite (usage_granted _ _ _ _ G).
Qed.

Lemma options_mistake_parting pf getenv pkg argv before w after :
  mistake (posixly getenv) (tl argv) (before ++ w :: after) -> Forall (fun w => ~ parting w) before -> parting w ->
  parse_options_getopt pf getenv pkg argv =
    (match w with
     | Help => usage_for (inline_bin argv) ++ [eol] ++ help_for (inline_bin argv)
     | Version => pkg ++ [eol]
     | _ => usage_for (inline_bin argv)
     end, Exit EXIT_SUCCESS).
Proof.
  intros A N P. destruct (mistake_codes _ _ _ A []) as (cs & more & F & E).
  unfold parse_options_getopt. fold (posixly getenv).
  destruct (getopt_long letters longopts (posixly getenv) (tl argv) []) as [codes files]. cbn [fst] in E. subst codes.
  apply Forall2_app_inv_r in F. destruct F as (c1 & c2 & F1 & F2 & ->). inversion F2 as [|c w' c3 ws' S F3]; subst.
  rewrite <- app_assoc. rewrite (option_codes_grants pkg _ _ F1 N). cbn [app option_codes].
  rewrite (option_code_grants _ _ _ _ S).
  destruct (parting_dec w) as [_|X]; [|easy].
  pose proof (granted_fold _ _ _ (granted_start pf getenv (hd_error argv)) before N) as G. fold (inline_bin argv) in G.
  unfold wbind. cbn [fst snd]. f_equal. unfold farewell, usage, help.
  rewrite (g_inline_bin _ _ _ _ G). now destruct w.
Qed.

(** The reading is unique. *)
Lemma forall2_stands_fun cs : forall ws ws', Forall2 stands cs ws -> Forall2 stands cs ws' -> ws' = ws.
Proof.
  induction cs as [|c cs IH]; intros ws ws' A B; inversion A; subst; inversion B; subst; [reflexivity|].
  f_equal; [eapply stands_fun; eauto|auto].
Qed.

Lemma asks_unique posix args ws fs ws' fs' : asks posix args ws fs -> asks posix args ws' fs' -> ws' = ws /\ fs' = fs.
Proof.
  intros A B. destruct (asks_codes _ _ _ _ A []) as (cs & F & E); [auto|]. destruct (asks_codes _ _ _ _ B []) as (cs' & F' & E'); [auto|].
  rewrite E in E'. pose proof (f_equal fst E') as E1. pose proof (f_equal snd E') as E2. cbn [fst snd app] in E1, E2. subst cs'.
  split; auto. eapply forall2_stands_fun; eauto.
Qed.

Lemma parting_split ws : Forall (fun w => ~ parting w) ws \/
  exists before w after, ws = before ++ w :: after /\ Forall (fun w => ~ parting w) before /\ parting w.
Proof.
  induction ws as [|w ws [IH|(b & x & a & -> & N & P)]]; [left; constructor| |].
  - destruct (parting_dec w); [right; exists [], w, ws; auto|left; auto].
  - right. destruct (parting_dec w); [exists [], w, (b ++ x :: a); auto|exists (w :: b), x, a; auto].
Qed.
