(** * The messages about the command line: proofs *)

From Verif Require Import Base BaseFacts Filter Filelist FilelistProofs File FileSpec Prog Warnings WarningsProofs ConfigParse ConfigLoadProofs
  Options OptionsSpec OptionsProofs Startup StartProofs.

Local Open Scope nat_scope.

(** Codes without a message. *)
Definition quiet (cs : list code) : list (code * option str) := map (fun c => (c, None)) cs.

Lemma quiet_app a b : quiet (a ++ b) = quiet a ++ quiet b.
Proof. apply map_app. Qed.

Section prog.
  Variable prog : str.

  Lemma cluster_says_letters cs us : alone_letters cs us ->
    exists codes, Forall2 stands codes us /\
      forall r, cluster_says prog letters (cs ++ r) = (quiet codes ++ fst (cluster_says prog letters r), snd (cluster_says prog letters r)).
  Proof.
    induction 1 as [|c w cs us L _ (codes & F & IH)].
    - exists []. split; [constructor|]. intros r. simpl. now destruct (cluster_says prog letters r).
    - exists (Short c None :: codes). split; [constructor; auto; now constructor|]. intros r.
      simpl. rewrite (letter_takes _ _ L), IH. reflexivity.
  Qed.

  Lemma cluster_says_plain cs us : alone_letters cs us ->
    exists codes, Forall2 stands codes us /\ cluster_says prog letters cs = (quiet codes, None).
  Proof.
    intros A. destruct (cluster_says_letters _ _ A) as (codes & F & E). exists codes. split; auto.
    specialize (E []). rewrite app_nil_r in E. rewrite E. simpl. now rewrite app_nil_r.
  Qed.

  Lemma says_operand posix f rest skipped : operand f ->
    getopt_long_says prog letters longopts posix (f :: rest) skipped =
    if posix then ([], f :: rest) else getopt_long_says prog letters longopts posix rest (skipped ++ [f]).
  Proof.
    intros [->|O]; [reflexivity|]. destruct f as [|c [|d r]]; try reflexivity. cbn [getopt_long_says].
    destruct (beq c "-") eqn:E; [|reflexivity]. apply beq_eq in E. subst. now elim (O (d :: r)).
  Qed.

  Lemma says_group posix s rest skipped : s <> [] -> (forall r, s <> "-"%byte :: r) ->
    getopt_long_says prog letters longopts posix (dashed s :: rest) skipped =
    match cluster_says prog letters s with
    | (codes, None) =>
      let (l, files) := getopt_long_says prog letters longopts posix rest skipped in (codes ++ l, files)
    | (codes, Some p) =>
      match rest with
      | [] => (codes ++ [(BAD, Some (argument_missing prog p))], skipped)
      | v :: rest' =>
        let (l, files) := getopt_long_says prog letters longopts posix rest' skipped in (codes ++ (Short p (Some v), None) :: l, files)
      end
    end.
  Proof.
    intros N D. unfold dashed. destruct s as [|c r]; [easy|].
    assert (E : beq c "-" = false) by (apply beq_neq; intros ->; now elim (D r)).
    cbn [getopt_long_says]. change (beq "-" "-") with true. cbn [negb]. rewrite E. reflexivity.
  Qed.

  Lemma says_double posix text rest skipped : text <> [] ->
    getopt_long_says prog letters longopts posix (double_dashed text :: rest) skipped =
    let (l, files) := getopt_long_says prog letters longopts posix rest skipped in (long_code_says prog longopts text :: l, files).
  Proof. intros N. destruct text; [easy|]. reflexivity. Qed.

  Lemma long_says_good text w : long_option text w -> exists c, stands c w /\ long_code_says prog longopts text = (c, None).
  Proof.
    intros L. pose proof (long_code_good _ _ L) as S. rewrite <- (long_code_same prog) in S.
    exists (fst (long_code_says prog longopts text)). split; [exact S|].
    assert (snd (long_code_says prog longopts text) = None); [|now destruct (long_code_says prog longopts text); simpl in *; subst].
    unfold long_code_says. destruct (upto_equals_spec text) as [[_ ->]|[I _]]; [|now apply long_option_plain in L].
    destruct (long_find _ _ L) as (r & _ & M). unfold long_match in M.
    destruct (find _ longopts); [reflexivity|]. destruct (filter _ longopts) as [|o [|o' l]]; try discriminate. reflexivity.
  Qed.

  (** Good arguments. *)
  Lemma asks_says posix args ws fs : asks posix args ws fs -> forall skipped, (posix = true -> skipped = []) ->
    exists cs, Forall2 stands cs ws /\ getopt_long_says prog letters longopts posix args skipped = (quiet cs, skipped ++ fs).
  Proof.
    induction 1 as [|files|f rest ws fs P O _ IH|f rest P O|cs us rest ws fs N A _ IH|cs us c v w rest ws fs A L N _ IH
                   |cs us c v w rest ws fs A L _ IH|text w rest ws fs L _ IH]; intros sk S.
    - exists []. split; [constructor|]. simpl. now rewrite app_nil_r.
    - exists []. split; [constructor|]. reflexivity.
    - rewrite says_operand by assumption. subst posix.
      destruct (IH (sk ++ [f])) as (cs & F & ->); [discriminate|]. exists cs. split; auto. now rewrite <- app_assoc.
    - rewrite says_operand by assumption. subst posix. rewrite S by reflexivity. exists []. split; [constructor|reflexivity].
    - assert (D : forall r, cs <> "-"%byte :: r).
      { intros r ->. inversion A as [|? w0 ? ? L0 A0]; subst. assert (K : known_letter "-"%byte) by (left; eauto).
        now apply letter_not_dash in K. }
      rewrite says_group by assumption.
      destruct (cluster_says_plain _ _ A) as (codes & F & ->). destruct (IH sk S) as (cs' & F' & ->).
      exists (codes ++ cs'). split; [now apply Forall2_app|now rewrite quiet_app].
    - rewrite says_group; [|now destruct cs|apply alone_head with us; auto; left; now apply known_with in L].
      destruct (cluster_says_letters _ _ A) as (codes & F & ->). cbn [cluster_says]. rewrite (letter_with_takes _ _ _ L).
      destruct v as [|v0 v]; [easy|]. cbn [fst snd]. destruct (IH sk S) as (cs' & F' & ->).
      exists (codes ++ Short c (Some (v0 :: v)) :: cs'). split.
      + apply Forall2_app; auto. constructor; auto. now constructor.
      + rewrite quiet_app. now rewrite <- app_assoc.
    - rewrite says_group; [|now destruct cs|apply alone_head with us; auto; left; now apply known_with in L].
      destruct (cluster_says_letters _ _ A) as (codes & F & ->). cbn [cluster_says]. rewrite (letter_with_takes _ _ _ L).
      cbn [fst snd]. destruct (IH sk S) as (cs' & F' & ->).
      exists (codes ++ Short c (Some v) :: cs'). split.
      + apply Forall2_app; auto. constructor; auto. now constructor.
      + rewrite quiet_app. now rewrite app_nil_r.
    - rewrite says_double by apply L. destruct (IH sk S) as (cs' & F' & ->).
      destruct (long_says_good _ _ L) as (c & Sc & ->).
      exists (c :: cs'). split; auto.
  Qed.
End prog.

Lemma option_code_granted pkg c w o : stands c w -> ~ parting w -> option_code_says pkg c o = done (grant w o).
Proof.
  intros S N. destruct S as [c w L|c v w L| | |]; [destruct L|destruct L| | |]; try reflexivity; elim N; unfold parting; tauto.
Qed.

Lemma tbind_done {A B} (a : A) (k : A -> talk B) : tbind (done a) k = k a.
Proof. unfold done, quietly. cbn. now destruct (k a). Qed.

Lemma option_codes_granted pkg cs ws : Forall2 stands cs ws -> Forall (fun w => ~ parting w) ws -> forall more o,
  option_codes_says pkg (quiet cs ++ more) o = option_codes_says pkg more (fold_left (fun o w => grant w o) ws o).
Proof.
  induction 1 as [|c w cs ws S _ IH]; intros N more o; [reflexivity|]. inversion N as [|? ? N1 N2]; subst.
  cbn [quiet map app option_codes_says fold_left]. rewrite tbind_done, (option_code_granted _ _ _ _ S N1), tbind_done. now apply IH.
Qed.

(** Command lines that make sense are read in silence. *)
Lemma options_silent pf getenv pkg argv ws fs t r :
  asks (posixly getenv) (tl argv) ws fs -> Forall (fun w => ~ parting w) ws ->
  parse_options_getopt pf getenv pkg argv = (t, r) -> parse_options_says pf getenv pkg argv = (fst (print_out t), r).
Proof.
  intros A N. destruct (asks_codes _ _ _ _ A []) as (cs & F & E); [auto|].
  destruct (asks_says (program_name argv) _ _ _ _ A []) as (cs' & F' & E'); [auto|].
  unfold parse_options_getopt, parse_options_says. fold (posixly getenv). rewrite E, E'. cbn [app].
  rewrite <- (app_nil_r cs), (option_codes_grants pkg _ _ F N), <- (app_nil_r (quiet cs')), (option_codes_granted pkg _ _ F' N).
  cbn [option_codes option_codes_says]. rewrite tbind_done, wbind_ret.
  set (o := fold_left _ ws _). destruct (o_list_sequences o); [intros [= <- <-]; reflexivity|].
  destruct fs as [|f fs]; [|intros [= <- <-]; reflexivity].
  destruct (o_is_inline_mode o); intros [= <- <-]; [reflexivity|]. unfold usage. destruct (o_is_inline_bin o); reflexivity.
Qed.
