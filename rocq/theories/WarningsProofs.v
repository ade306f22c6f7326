(** * What the filters print: proofs *)

From Verif Require Import Base BaseFacts Stdio Table CleanString CleanUtf8 Filter Prog ProgFacts Warnings.

(** ** Talking *)

Lemma talk_result {A B} (m : talk A) (k : A -> talk B) :
  snd (tbind m k) = (do a <- snd m; snd (k a)).
Proof. destruct m as [l [a|w|c]]; simpl; auto. now destruct (k a). Qed.

Lemma talk_texts {A B} (m : talk A) (k : A -> talk B) :
  fst (tbind m k) = fst m ++ match snd m with Ok a => fst (k a) | _ => [] end.
Proof. destruct m as [l [a|w|c]]; simpl; rewrite ?app_nil_r; auto. now destruct (k a). Qed.

Lemma told_app {A} a b (p : prog A) : told (a ++ b) p = told a (told b p).
Proof. induction a as [|[out text] a IH]; simpl; [reflexivity|]. now rewrite IH. Qed.

Lemma told_bind {A B} l (p : prog A) (f : A -> prog B) : pbind (told l p) f = told l (pbind p f).
Proof.
  induction l as [|[out text] l IH]; [reflexivity|]. cbn [told pbind]. now rewrite IH.
Qed.

(** ** The results are the same *)

Lemma iso8859_1_result s t : snd (clean_iso8859_1_says s t) = clean_iso8859_1 s t.
Proof. now destruct t. Qed.

Lemma safe_result b s t : snd (clean_safe_says b s t) = clean_safe b s t.
Proof. now destruct t. Qed.

Lemma max_length_result s m : snd (clean_max_length_says s m) = clean_max_length s m.
Proof.
  unfold clean_max_length_says, clean_max_length. cbv zeta.
  destruct (_ <=? _)%N; [reflexivity|]. destruct (strrchr s _) as [[b e]|]; [|reflexivity].
  destruct (_ =? 1)%N; [reflexivity|]. destruct (_ <=? _)%N; reflexivity.
Qed.

Lemma value_says_ok t v : snd (utf_8_value_says t v) = Ok tt.
Proof.
  unfold utf_8_value_says. destruct (table_get t v); [reflexivity|].
  destruct (v =? 0)%N; [reflexivity|]. now destruct (_ <? v)%N.
Qed.

Lemma utf_8_loop_result fuel cap t : forall s acc, snd (utf_8_loop_says fuel cap t s acc) = utf_8_loop fuel cap t s acc.
Proof.
  induction fuel as [|fuel IH]; intros s acc; destruct s as [|c rest]; try reflexivity.
  cbn [utf_8_loop_says utf_8_loop]. destruct (get_utf_8_width c) as [w|].
  - destruct (utf_8_cont_loop (w - 1) (unpack_start c w) rest []) as [[[v e] r]|r].
    + rewrite talk_result, value_says_ok. cbn [bind]. rewrite talk_result. cbn [quietly snd].
      destruct (utf_8_replacement t v); (destruct (wrs _ _ _); cbn [bind]; auto).
    + rewrite talk_result. cbn [complain say snd bind]. rewrite talk_result. cbn [quietly snd].
      destruct (wr _ _ _); cbn [bind]; auto.
  - rewrite talk_result. cbn [complain say snd bind]. rewrite talk_result. cbn [quietly snd].
    destruct (wr _ _ _); cbn [bind]; auto.
Qed.

Lemma utf_8_result s t : snd (clean_utf_8_says s t) = clean_utf_8 s t.
Proof.
  destruct t as [t|]; [|reflexivity]. unfold clean_utf_8_says, clean_utf_8. cbv zeta.
  rewrite talk_result, utf_8_loop_result. reflexivity.
Qed.

Lemma filter_result pf f n : snd (filter_run_says pf f n) = filter_run pf f n.
Proof.
  destruct n as [n|]; [|reflexivity]. unfold filter_run_says, filter_run. cbv zeta.
  destruct (f_cleaner f); try reflexivity; rewrite talk_result;
    rewrite ?iso8859_1_result, ?safe_result, ?max_length_result, ?utf_8_result; reflexivity.
Qed.

Lemma filters_result pf fs : forall n, snd (run_filters_says pf fs n) = run_filters pf fs n.
Proof.
  induction fs as [|f fs IH]; intros [n|]; try reflexivity. cbn [run_filters_says run_filters].
  rewrite talk_result, filter_result. destruct (filter_run pf f (Some n)); cbn [bind]; auto.
Qed.

Lemma sequence_result pf seq n : snd (sequence_run_says pf seq n) = sequence_run_filters pf seq n.
Proof. destruct seq as [s|]; [|reflexivity]. destruct n as [n|]; [apply filters_result|reflexivity]. Qed.

(** The program that cleans a name. *)
Lemma talking_sequence pf seq n :
  talking (sequence_run_says pf seq n) = told (fst (sequence_run_says pf seq n)) (lift (sequence_run_filters pf seq n)).
Proof. unfold talking. now rewrite sequence_result. Qed.

(** ** Everything is printed on stderr *)

Definition on_stderr (l : list (stream * str)) : Prop := Forall (fun m => fst m = Stderr) l.

Lemma on_stderr_bind {A B} (m : talk A) (k : A -> talk B) :
  on_stderr (fst m) -> (forall a, on_stderr (fst (k a))) -> on_stderr (fst (tbind m k)).
Proof.
  intros M K. unfold on_stderr in *. rewrite talk_texts. apply Forall_app. split; auto. now destruct (snd m).
Qed.

Lemma on_stderr_complain text : on_stderr (fst (complain text)).
Proof. repeat constructor. Qed.

Lemma on_stderr_error {A} : on_stderr (fst (internal_error (A := A))).
Proof. repeat constructor. Qed.

Lemma on_stderr_none : on_stderr [].
Proof. constructor. Qed.

Local Hint Resolve on_stderr_complain on_stderr_error on_stderr_none : core.

Lemma max_length_stderr s m : on_stderr (fst (clean_max_length_says s m)).
Proof.
  unfold clean_max_length_says. cbv zeta.
  destruct (_ <=? _)%N; [constructor|]. destruct (strrchr s _) as [[b e]|]; [|constructor].
  destruct (_ =? 1)%N; [constructor|]. destruct (_ <=? _)%N; [|constructor]. repeat constructor.
Qed.

Lemma utf_8_loop_stderr fuel cap t : forall s acc, on_stderr (fst (utf_8_loop_says fuel cap t s acc)).
Proof.
  induction fuel as [|fuel IH]; intros s acc; destruct s as [|c rest]; auto; cbn [utf_8_loop_says]; auto.
  destruct (get_utf_8_width c) as [w|].
  - destruct (utf_8_cont_loop (w - 1) (unpack_start c w) rest []) as [[[v e] r]|r].
    + apply on_stderr_bind.
      * unfold utf_8_value_says. destruct (table_get t v); auto. destruct (v =? 0)%N; auto. destruct (_ <? v)%N; auto.
      * intros _. apply on_stderr_bind; auto.
    + apply on_stderr_bind; auto. intros _. apply on_stderr_bind; auto.
  - apply on_stderr_bind; auto. intros _. apply on_stderr_bind; auto.
Qed.

Lemma filter_stderr pf f n : on_stderr (fst (filter_run_says pf f n)).
Proof.
  destruct n as [n|]; [|constructor]. unfold filter_run_says. cbv zeta.
  destruct (f_cleaner f); apply on_stderr_bind; auto; try (intros; exact (on_stderr_none)).
  - destruct (f_table f); cbn [clean_iso8859_1_says clean_safe_says]; auto; constructor.
  - apply max_length_stderr.
  - destruct (f_table f); cbn [clean_iso8859_1_says clean_safe_says]; auto; constructor.
  - unfold clean_utf_8_says. destruct (f_table f); auto. cbv zeta. apply on_stderr_bind; auto. apply utf_8_loop_stderr.
Qed.

Lemma filters_stderr pf fs : forall n, on_stderr (fst (run_filters_says pf fs n)).
Proof.
  induction fs as [|f fs IH]; intros [n|]; auto; cbn [run_filters_says]; auto.
  apply on_stderr_bind; auto. apply filter_stderr.
Qed.

Lemma sequence_stderr pf seq n : on_stderr (fst (sequence_run_says pf seq n)).
Proof. destruct seq as [s|]; [|apply on_stderr_error]. destruct n as [n|]; [apply filters_stderr|constructor]. Qed.

(** ** Along executions *)

Section wp.
  Context {S : Type}.
  Variable step : S -> forall c, answer c -> S -> Prop.
  Variable interference : S -> S -> Prop.
  Variable I : list event -> S -> Prop.
  Variable J : list event -> S -> call -> Prop.
  (** What printing on stderr does not change. *)
  Variable K : list event -> S -> Prop.

  Hypothesis K_I : forall tr s, K tr s -> I tr s.
  Hypothesis K_J : forall tr s text, K tr s -> J tr s (Print Stderr text).
  Hypothesis K_K : forall tr s text s0 r s1, K tr s -> interference s s0 -> step s0 (Print Stderr text) r s1 ->
    K (Ev (Print Stderr text) r :: tr) s1.

  Lemma wp_told {A} l (p : prog A) Q : on_stderr l ->
    (forall tr s, K tr s -> wp step interference I J p Q tr s) ->
    forall tr s, K tr s -> wp step interference I J (told l p) Q tr s.
  Proof.
    intros L H. induction L as [|[out text] l E L IH]; intros tr s Hk; [now apply H|].
    simpl in E. subst out. cbn [told]. apply wp_call; auto. intros s0 r s1 In St. apply IH. eapply K_K; eauto.
  Qed.
End wp.
